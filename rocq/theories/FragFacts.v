(** * Facts behind Prop_Frag.v: what is written while the generator discards. *)
From Verif Require Import Base Ws Ast Ident IdentFacts GenExpr Heritage Gen Sem RefSem Scoped HeritageFacts HeritageSpec SimExpr SimFacts GenSteps GenElab Sim FragSpec.
From Coq Require Import Lia.
Local Open Scope N_scope.

Section Off.
  Variable inp : ginput.
  Variable contexts : list (str * context).
  Variable find : str -> str -> res str.
  Variable x : str.
  Variable path : list str.
  Hypothesis Hblock : f_block inp = Some x.
  Notation lacks := (lacks inp contexts find x path).

  (** Nothing is written and nothing is waiting. *)
  Record Off (st : gst) : Prop := { off_d : s_discard st = true; off_o : o_discard st = true; off_b : s_buf st = [];
    off_s : forall y g, s_super st = Some (y, g) -> mem_str y (x :: path) = false }.
  Ltac off_solve := intros; match goal with H : Off _ |- _ => destruct H end; constructor; cbn; assumption.
  Lemma off_push l st : Off st -> Off (push l st).
  Proof. intros H. unfold push. rewrite (off_d _ H). exact H. Qed.
  Lemma off_ws w st : Off st -> Off (set_ws w st). Proof. off_solve. Qed.
  Lemma off_locals m st : Off st -> Off (set_locals m st). Proof. off_solve. Qed.
  Lemma off_named n st : Off st -> Off (set_named n st). Proof. off_solve. Qed.
  Lemma off_indent i st : Off st -> Off (set_indent i st). Proof. off_solve. Qed.
  Lemma off_nobuf st : Off st -> Off (set_buf [] st). Proof. intros []; constructor; cbn; auto. Qed.
  Lemma off_flush l st : Off st -> Off (do_flush_ws inp l st).
  Proof. intros H. unfold do_flush_ws. destruct (flush_ws _ _ _). apply off_push, off_ws, H. Qed.
  Lemma off_prepare l st : Off st -> Off (do_prepare_ws inp l st).
  Proof. intros H. apply off_ws, H. Qed.
  Lemma off_handle w st : Off st -> Off (do_handle_ws inp w st).
  Proof. intros H. apply off_prepare, off_flush, H. Qed.
  Lemma off_lit l st st' : Off st -> do_visit_lit l st = GOk st' -> Off st'.
  Proof. intros H E. unfold do_visit_lit in E. destruct (visit_lit _ _) as [[o w]|]; [|discriminate E]. injection E as <-. apply off_push, off_ws, H. Qed.
  Lemma off_open st : Off st -> Off (open_brace st).
  Proof. intros H. unfold open_brace. rewrite (off_o _ H). exact H. Qed.
  Lemma off_dedent st st' : Off st -> dedent st = GOk st' -> Off st'.
  Proof. intros H E. unfold dedent in E. destruct (_ =? 0); [discriminate E|]. injection E as <-. apply off_indent, H. Qed.
  Lemma off_close st st' : Off st -> close_brace st = GOk st' -> Off st'.
  Proof. intros H E. unfold close_brace in E. rewrite (off_o _ H) in E. injection E as <-. exact H. Qed.
  Lemma off_pushl st : Off st -> Off (push_locals st).
  Proof. intros H. apply off_locals, H. Qed.
  Lemma off_popl st st' : Off st -> pop_locals st = GOk st' -> Off st'.
  Proof. intros H E. unfold pop_locals in E. apply gbind_inv in E as (m & _ & [= <-]). apply off_locals, H. Qed.
  Lemma empty_write st c z st' : s_buf st = [] -> write_buf_writable inp st = GOk (c, z, st') -> c = [] /\ st' = set_named (s_named st) (set_buf [] st).
  Proof. intros H E. unfold write_buf_writable in E. rewrite H in E. cbn in E. injection E as <- _ <-. auto. Qed.
  Lemma off_write st c z st' : Off st -> write_buf_writable inp st = GOk (c, z, st') -> c = [] /\ Off st'.
  Proof. intros H E. apply empty_write in E as [-> ->]; [|apply H]. split; [reflexivity|]. apply off_named, off_nobuf, H. Qed.
  Lemma off_emit st l : Off st -> emit st l = [].
  Proof. intros H. unfold emit. rewrite (off_o _ H). reflexivity. Qed.
  Lemma off_around st s l : Off st -> emit_around st s l = l.
  Proof. intros H. unfold emit_around. rewrite (off_o _ H). reflexivity. Qed.

  (** What the definitions have to be like *)
  Definition Qc (c : context) : Prop := forall y d, get y (c_macros c) = Some d -> forallb lacks (k_nodes d) = true.
  Definition Qh (her : option heritage) : Prop := match her with
    | None => True
    | Some h => forall y defs c d, get y (h_blocks h) = Some defs -> In (c, d) defs -> Qc c /\ (mem_str y (x :: path) = false -> forallb lacks (b_nodes d) = true)
    end.
  Hypothesis Hcontexts : forall p c, get p contexts = Some c -> Qc c /\ (stands_alone c = true -> forallb lacks (c_nodes c) = true).
  Lemma Qc_merge outer inner : Qc outer -> Qc inner -> Qc (merge_context outer inner).
  Proof.
    intros H1 H2 y d E. destruct (merge_sees outer inner) as (_ & _ & _ & M & _). rewrite M in E.
    destruct (get y (c_macros inner)) as [d'|] eqn:E'; [injection E as <-; exact (H2 _ _ E')|exact (H1 _ _ E)].
  Qed.

  Definition off_expand (f : nat) : Prop := forall her ctx nodes lv st code z st', Qh her -> Qc ctx -> forallb lacks nodes = true -> Off st ->
    handle inp contexts find f her ctx nodes lv st = GOk (code, z, st') -> code = [] /\ Off st'.
  Section Nodes.
    Variable f : nat.
    Hypothesis HE : off_expand f.
    Variable her : option heritage.
    Variable ctx : context.
    Hypothesis HH : Qh her.
    Hypothesis HC : Qc ctx.
    Notation hn := (handle_node inp contexts find (handle inp contexts find f) her ctx).
    Definition off_node (n : node) : Prop := forall lv st code z st', lacks n = true -> Off st -> hn lv n st = GOk (code, z, st') -> code = [] /\ Off st'.
    Ltac bind E a H := apply gbind_inv in E as (a & H & E); cbv beta iota zeta in E.

    Lemma off_list lv l : Forall off_node l -> forall st code z st', forallb lacks l = true -> Off st -> gen_list (hn lv) l st = GOk (code, z, st') -> code = [] /\ Off st'.
    Proof.
      induction 1 as [|n l Hn _ IH]; intros st code z st' HL A E; cbn [gen_list] in E.
      - injection E as <- _ <-. auto.
      - cbn [forallb] in HL. apply andb_prop in HL as [L1 L2]. bind E r E1. destruct r as [[c1 z1] s1]. bind E r E2. destruct r as [[c2 z2] s2]. injection E as <- _ <-.
        destruct (Hn _ _ _ _ _ L1 A E1) as [-> A1]. exact (IH _ _ _ _ L2 A1 E2).
    Qed.
    Lemma off_test first test st t st' : Off st -> if_test inp first test st = GOk (t, st') -> Off st'.
    Proof.
      intros A E. unfold if_test in E. destruct test as [t0|].
      - bind E s E1. assert (A1 : Off s) by (destruct first; [injection E1 as <-; exact A|eapply off_dedent; eassumption]). clear E1. bind E u E2. clear E2.
        destruct (ct_target t0) as [p|].
        + assert (G1 : forall e, (let* e' := of_res (visit_expr_root inp (s_locals s) e) in let* (p', m) := of_res (visit_target (s_locals s) true p) in
                               GOk (RIfLet p' e', set_locals m s)) = GOk (t, st') -> Off st').
          { intros e K. bind K e' K1. bind K r K2. destruct r as [p' m]. injection K as _ <-. apply off_locals, A1. }
          destruct (ct_expr t0); try exact (G1 _ E). destruct (_ || _); [|exact (G1 _ E)].
          bind E l' E3. bind E r E4. destruct r as [p' m]. bind E r' E5. injection E as _ <-. apply off_locals, A1.
        + bind E e' E3. injection E as _ <-. exact A1.
      - bind E s E1. bind E u E2. injection E as _ <-. eapply off_dedent; eassumption.
    Qed.
    Lemma off_branches w_end cs : Forall (cond_all off_node) cs -> forall first st code rbs z sizes he st',
      forallb (fun c => match c with Cond _ _ ns => forallb lacks ns end) cs = true -> Off st ->
      gen_branches inp (hn LNested) w_end first cs st = GOk (code, rbs, z, sizes, he, st') -> code = [] /\ concat (map snd rbs) = [] /\ Off st'.
    Proof.
      induction 1 as [|[w t ns] cs Hc _ IH]; intros first st code rbs z sizes he st' HL A E; cbn [gen_branches] in E; cbv zeta in E.
      - bind E r E1. destruct r as [[c z1] s1]. destruct (off_write _ _ _ _ (off_handle _ _ A) E1) as [-> A1].
        bind E s2 E2. bind E s3 E3. injection E as <- <- _ _ _ <-. split; [reflexivity|]. split; [reflexivity|]. eapply off_popl; [|exact E3]. eapply off_close; eassumption.
      - cbn [forallb] in HL. apply andb_prop in HL as [L1 L2]. bind E r E1. destruct r as [[c z1] s1]. destruct (off_write _ _ _ _ (off_handle _ _ A) E1) as [-> A1].
        bind E s2 E2. assert (A2 : Off s2) by (destruct first; [injection E2 as <-; exact A1|eapply off_popl; eassumption]).
        bind E r E3. destruct r as [t' s3]. pose proof (off_test _ _ _ _ _ (off_pushl _ A2) E3) as A3.
        bind E r E4. destruct r as [[body size] s4]. destruct (off_list LNested ns Hc _ _ _ _ L1 (off_open _ A3) E4) as [-> A4].
        bind E r E5. destruct r as [[[[[after rest] z'] sz] he'] s5]. destruct (IH _ _ _ _ _ _ _ _ L2 A4 E5) as (-> & R & A5).
        injection E as <- <- _ _ _ <-. split; [reflexivity|]. split; [exact R|exact A5].
    Qed.
    Lemma off_arms w_end arms : Forall (when_all off_node) arms -> forall first st code z rarms sizes st',
      forallb (fun c => match c with When _ _ ns => forallb lacks ns end) arms = true -> Off st ->
      gen_arms inp (hn LNested) w_end first arms st = GOk (code, z, rarms, sizes, st') -> code = [] /\ concat (map snd rarms) = [] /\ Off st'.
    Proof.
      induction 1 as [|[w t ns] cs Hc _ IH]; intros first st code z rarms sizes st' HL A E; cbn [gen_arms] in E; cbv zeta in E.
      - bind E r E1. destruct r as [[c z1] s1]. destruct (off_write _ _ _ _ (off_handle _ _ A) E1) as [-> A1].
        bind E s2 E2. bind E s3 E3. injection E as <- _ <- _ <-. split; [reflexivity|]. split; [reflexivity|]. eapply off_popl; [|exact E3]. eapply off_close; eassumption.
      - cbn [forallb] in HL. apply andb_prop in HL as [L1 L2]. bind E r E1. destruct r as [[c z1] s1].
        assert (A1 : c = [] /\ Off s1).
        { destruct first; [injection E1 as <- _ <-; split; [reflexivity|apply off_handle, A]|]. bind E1 r E2. destruct r as [[c2 z2] s2].
          destruct (off_write _ _ _ _ (off_handle _ _ A) E2) as [-> A2]. bind E1 s3 E3. bind E1 s4 E4. injection E1 as <- _ <-. split; [reflexivity|].
          eapply off_popl; [|exact E4]. eapply off_close; eassumption. }
        destruct A1 as [-> A1]. bind E u E2. bind E r E3. destruct r as [p m]. bind E r E4. destruct r as [[body size] s4].
        destruct (off_list LNested ns Hc _ _ _ _ L1 (off_open _ (off_locals m _ (off_pushl _ A1))) E4) as [-> A4].
        bind E r E5. destruct r as [[[[after z'] rest] sz] s5]. destruct (IH _ _ _ _ _ _ _ L2 A4 E5) as (-> & R & A5).
        injection E as <- _ <- _ <-. split; [reflexivity|]. split; [exact R|exact A5].
    Qed.
    Lemma off_loop w1 t it c body w2 els w3 : Forall off_node body -> Forall off_node els -> off_node (NLoop w1 t it c body w2 els w3).
    Proof.
      intros Hb He lv st code z st' HL A E. cbn [FragSpec.lacks] in HL. apply andb_prop in HL as [L1 L2]. cbn [handle_node] in E. unfold write_loop in E. cbv zeta in E.
      bind E r E1. bind E q E2. destruct q as [[c0 z0] s0]. destruct (off_write _ _ _ _ (off_pushl _ (off_handle w1 _ A)) E2) as [-> A0].
      bind E u1 E3. bind E u2 E4. bind E q E5. destruct q as [flt s1].
      assert (A1 : Off s1).
      { destruct c as [c|]; [|injection E5 as _ <-; apply off_open, A0]. bind E5 q E6. destruct q as [p m]. bind E5 c' E7. bind E5 s2 E8. injection E5 as _ <-.
        eapply off_popl; [|exact E8]. apply off_locals, off_pushl, off_open, A0. }
      bind E u3 E6. bind E q E7. destruct q as [p m]. bind E u4 E8. bind E q E9. destruct q as [[c1 z1] s2].
      destruct (off_list LNested body Hb _ _ _ _ L1 (off_open _ (off_locals m _ (off_pushl _ A1))) E9) as [-> A2].
      bind E q E10. destruct q as [[c1' z1'] s3]. destruct (off_write _ _ _ _ (off_handle w2 _ A2) E10) as [-> A3].
      bind E s4 E11. bind E s5 E12. pose proof (off_close _ _ (off_popl _ _ A3 E11) E12) as A5. bind E q E13. destruct q as [[[ce ct] z2] s6].
      assert (A6 : ce = [] /\ ct = [] /\ Off s6).
      { destruct els as [|n0 els'].
        - cbv beta iota in E13. bind E13 q E14. destruct q as [[c2 z3] s7]. destruct (off_write _ _ _ _ (off_handle w3 _ A5) E14) as [-> A7]. injection E13 as <- <- _ <-. auto.
        - cbv beta iota in E13. bind E13 u5 E14. bind E13 q E15. destruct q as [[c2 z3] s7]. destruct (off_list LNested _ He _ _ _ _ L2 (off_pushl _ (off_open _ A5)) E15) as [-> A7].
          bind E13 q E16. destruct q as [[c2' z3'] s8]. destruct (off_write _ _ _ _ (off_handle w3 _ A7) E16) as [-> A8]. bind E13 s9 E17. bind E13 s10 E18. injection E13 as <- <- _ <-.
          split; [reflexivity|]. split; [reflexivity|]. eapply off_close; [|exact E18]. eapply off_popl; eassumption. }
      destruct A6 as (-> & -> & A6). bind E s7 E14. bind E s8 E15. injection E as <- _ <-. pose proof (off_popl _ _ (off_close _ _ A6 E14) E15) as A8.
      rewrite (off_around _ _ _ A8). auto.
    Qed.
    Lemma off_block name outer st code z st' : (forall y, name = Some y -> mem_str y (x :: path) = false) -> Off st -> write_block inp (handle inp contexts find f) her ctx name outer st = GOk (code, z, st') ->
      code = [] /\ Off st'.
    Proof.
      intros Hn A E. unfold write_block in E. cbv zeta in E. pose proof (off_flush (ws_l outer) _ A) as A1. bind E cur E1.
      assert (Hcur : mem_str (fst cur) (x :: path) = false).
      { destruct name as [y|].
        - assert (fst cur = y) as ->; [|exact (Hn y eq_refl)]. destruct (s_super _) as [[pv g]|]; [destruct (str_eqb y pv); [discriminate E1|]|]; injection E1 as <-; reflexivity.
        - pose proof (off_s _ A1) as S. destruct (s_super (do_flush_ws inp (ws_l outer) st)) as [[pv g]|]; [|discriminate E1]. injection E1 as <-. cbn [fst]. exact (S pv g eq_refl). }
      bind E q E2. destruct q as [[c0 z0] s0]. destruct (off_write _ _ _ _ A1 E2) as [-> A2].
      assert (Hf : match f_block inp, name with Some a, Some b => str_eqb a b | None, None => true | _, _ => false end = false).
      { rewrite Hblock. destruct name as [y|]; [|reflexivity]. destruct (str_eqb x y) eqn:K; [|reflexivity]. apply str_eqb_eq in K. specialize (Hn y eq_refl). subst y. cbn [mem_str] in Hn. rewrite str_eqb_refl in Hn. discriminate Hn. }
      rewrite Hf in E. cbn [andb] in E. clear Hf. revert HH E. destruct her as [h|]; [|discriminate]. intros HH' E. destruct (get (fst cur) (h_blocks h)) as [defs|] eqn:Ed; [|discriminate E].
      destruct (nth_error defs (snd cur)) as [[cc def]|] eqn:En; [|discriminate E]. destruct (HH' _ _ _ _ Ed (nth_error_In _ _ En)) as [Q1 Q2].
      bind E q E3. destruct q as [[c1 z1] s1].
      assert (A3 : c1 = [] /\ Off s1).
      { refine (HE (Some h) _ _ LBlock _ _ _ _ HH' (Qc_merge _ _ HC Q1) (Q2 Hcur) _ E3). constructor; cbn; [apply A2|apply A2|apply A2|].
        intros y g K. destruct cur as [y' k]. injection K as <- _. exact Hcur. }
      destruct A3 as [-> A3]. bind E q E4. destruct q as [[c2 z2] s2].
      assert (A4 : c2 = [] /\ Off s2).
      { destruct (ch_is_current_empty _); [injection E4 as <- _ <-; auto|eapply off_write; eassumption]. }
      destruct A4 as [-> A4]. injection E as <- _ <-. split; [reflexivity|]. apply off_prepare. pose proof (off_flush (ws_l (b_ws2 def)) _ A4) as A5.
      constructor; cbn; [apply A5|apply A2|apply A5|apply A2].
    Qed.
    Lemma off_include w file : off_node (NInclude w file).
    Proof.
      intros lv st code z st' HL A E. cbn [FragSpec.lacks] in HL. cbn [handle_node] in E. unfold write_include in E. cbv zeta in E.
      bind E q E1. destruct q as [[c0 z0] s0]. destruct (off_write _ _ _ _ (off_flush _ _ A) E1) as [-> A0]. bind E p E2. apply of_res_inv in E2. bind E u E3.
      unfold include_alone in HL. rewrite E2 in HL. destruct (get p contexts) as [c|] eqn:Ec; [|discriminate E]. unfold stands_alone in HL.
      cbn [merge_context c_blocks c_extends] in E. destruct (c_blocks c) eqn:Eb; [|discriminate HL]. destruct (c_extends c) eqn:Ee; [discriminate HL|]. cbn [gbind] in E.
      destruct (Hcontexts p c Ec) as [Q1 Q2]. specialize (Q2 ltac:(unfold stands_alone; rewrite Eb, Ee; reflexivity)).
      bind E q E4. destruct q as [[c1 z1] s1].
      assert (A1 : c1 = [] /\ Off s1).
      { refine (HE None _ _ LTop _ _ _ _ I (Qc_merge _ _ HC Q1) Q2 _ E4). constructor; cbn; [apply A0|apply A0|reflexivity|discriminate]. }
      destruct A1 as [-> A1]. bind E q E5. destruct q as [[c2 z2] s2]. destruct (off_write _ _ _ _ A1 E5) as [-> A2]. injection E as <- _ <-.
      pose proof (off_indent (o_indent s2) _ A0) as A3. rewrite (off_emit _ _ A3). split; [reflexivity|]. apply off_prepare, A3.
    Qed.
    Lemma off_call w scope name args : off_node (NCall w scope name args).
    Proof.
      intros lv st code z st' _ A E. cbn [handle_node] in E. unfold write_call in E. destruct (str_eqb name (lit "super")); [eapply off_block in E; [exact E|discriminate|exact A]|]. cbv zeta in E.
      bind E q E1. destruct q as [def own].
      assert (Q : Qc own /\ forallb lacks (k_nodes def) = true).
      { destruct scope as [s|].
        - destruct (get s (c_imports ctx)) as [p|]; [|discriminate E1]. destruct (get p contexts) as [mc|] eqn:Ep; [|discriminate E1].
          destruct (get name (c_macros mc)) as [d|] eqn:Em; [|discriminate E1]. injection E1 as <- <-. destruct (Hcontexts _ _ Ep) as [Q _]. split; [exact Q|exact (Q _ _ Em)].
        - destruct (get name (c_macros ctx)) as [d|] eqn:Em; [|discriminate E1]. injection E1 as <- <-. split; [exact HC|exact (HC _ _ Em)]. }
      destruct Q as [Q1 Q2]. bind E q E2. destruct q as [[c0 z0] s0]. destruct (off_write _ _ _ _ (off_pushl _ (off_flush _ _ A)) E2) as [-> A0].
      bind E u E3. destruct (negb _); [discriminate E|]. bind E named E4. bind E q E5. destruct q as [[m names] values]. bind E u2 E6. bind E q E7. destruct q as [[c1 z1] s1].
      destruct (HE her own _ LNested _ _ _ _ HH Q1 Q2 (off_locals m _ (off_prepare _ _ (off_open _ A0))) E7) as [-> A1].
      bind E q E8. destruct q as [[c2 z2] s2]. destruct (off_write _ _ _ _ (off_flush _ _ A1) E8) as [-> A2]. bind E s3 E9. bind E s4 E10. injection E as <- _ <-.
      pose proof (off_prepare (ws_r w) _ (off_popl _ _ (off_close _ _ A2 E9) E10)) as A4. rewrite (off_around _ _ _ A4). auto.
    Qed.
    Lemma off_filter w1 y args l w2 : Forall off_node l -> off_node (NFilterBlock w1 y args l w2).
    Proof.
      intros Hl lv st code z st' HL A E. cbn [FragSpec.lacks] in HL. cbn [handle_node] in E. unfold write_filter_block in E. cbv zeta in E.
      bind E var E1. bind E q E2. destruct q as [[c1 z1] s1]. destruct (off_list LNested l Hl _ _ _ _ HL (off_prepare _ _ (off_nobuf _ (off_flush _ _ A))) E2) as [-> A1].
      bind E q E3. destruct q as [[wz parts] nm]. apply of_res_inv in E3. rewrite (off_b _ (off_flush (ws_l w2) _ A1)) in E3. cbn in E3. injection E3 as _ <- _. cbv iota in E.
      injection E as <- _ <-. split; [reflexivity|]. apply off_named, off_nobuf, off_flush, A1.
    Qed.
    Lemma off_let w t e : off_node (NLet w t e).
    Proof.
      intros lv st code z st' _ A E. cbn [handle_node] in E. unfold write_let in E. cbv zeta in E. pose proof (off_handle w _ A) as A1. destruct e as [e|].
      - bind E r E1. bind E sh E2. bind E q E3. destruct q as [[c1 z1] s1].
        assert (A2 : c1 = [] /\ Off s1) by (destruct sh; [eapply off_write; eassumption|injection E3 as <- _ <-; auto]). destruct A2 as [-> A2].
        bind E u E4. bind E q E5. destruct q as [p m]. injection E as <- _ <-. rewrite (off_emit _ _ A2). split; [reflexivity|apply off_locals, A2].
      - bind E q E3. destruct q as [[c1 z1] s1]. destruct (off_write _ _ _ _ A1 E3) as [-> A2]. bind E u E4. bind E q E5. destruct q as [p m]. injection E as <- _ <-.
        rewrite (off_emit _ _ A2). split; [reflexivity|apply off_locals, A2].
    Qed.
    Lemma off_all n : off_node n.
    Proof.
      induction n using node_ind'.
      - intros lv st code z st' _ A E. cbn [handle_node] in E. bind E s E1. injection E as <- _ <-. split; [reflexivity|eapply off_lit; eassumption].
      - intros lv st code z st' _ A E. cbn [handle_node] in E. injection E as <- _ <-. split; [reflexivity|apply off_handle, A].
      - intros lv st code z st' _ A E. cbn [handle_node] in E. injection E as <- _ <-. split; [reflexivity|apply off_push, off_handle, A].
      - apply off_call.
      - apply off_let.
      - intros lv st code z st' HL A E. cbn [FragSpec.lacks] in HL. cbn [handle_node] in E. bind E q E1. destruct q as [[[[[c0 rbs] z0] sz] he] s0].
        destruct (off_branches _ _ H _ _ _ _ _ _ _ _ HL A E1) as (-> & R & A1). bind E zz E2. injection E as <- _ <-. rewrite (off_around _ _ _ A1), R. auto.
      - intros lv st code z st' HL A E. cbn [FragSpec.lacks] in HL. cbn [handle_node] in E. cbv zeta in E. bind E q E1. destruct q as [[c0 z0] s0].
        destruct (off_write _ _ _ _ (off_flush _ _ A) E1) as [-> A0]. bind E r E2. bind E u E3. bind E q E4. destruct q as [[[[c1 z1] ra] sz] s1].
        destruct (off_arms _ _ H _ _ _ _ _ _ _ HL (off_open _ A0) E4) as (_ & R & A1). bind E s2 E5. bind E zz E6. injection E as <- _ <-.
        pose proof (off_close _ _ A1 E5) as A2. rewrite (off_around _ _ _ A2), R. auto.
      - apply off_loop; assumption.
      - intros lv st code z st' _ A E. cbn [handle_node] in E. destruct (top_level lv); [|discriminate E]. injection E as <- _ <-. auto.
      - intros lv st code z st' HL A E. cbn [handle_node FragSpec.lacks] in *. eapply off_block in E; [exact E| |exact A]. intros y [= <-]. apply negb_true_iff, HL.
      - apply off_include.
      - intros lv st code z st' _ A E. cbn [handle_node] in E. destruct (top_level lv); [|discriminate E]. injection E as <- _ <-. split; [reflexivity|apply off_handle, A].
      - intros lv st code z st' _ A E. cbn [handle_node] in E. destruct (top_level lv); [|discriminate E]. injection E as <- _ <-. split; [reflexivity|apply off_prepare, off_flush, A].
      - intros lv st code z st' _ A E. cbn [handle_node] in E. bind E s E1. injection E as <- _ <-. split; [reflexivity|apply off_handle; eapply off_lit; [apply off_handle, A|exact E1]].
      - intros lv st code z st' _ A E. cbn [handle_node] in E. bind E q E1. destruct q as [[c1 z1] s1]. destruct (off_write _ _ _ _ (off_handle w _ A) E1) as [-> A1]. bind E u E2.
        injection E as <- _ <-. rewrite (off_emit _ _ A1). auto.
      - intros lv st code z st' _ A E. cbn [handle_node] in E. bind E q E1. destruct q as [[c1 z1] s1]. destruct (off_write _ _ _ _ (off_handle w _ A) E1) as [-> A1]. bind E u E2.
        injection E as <- _ <-. rewrite (off_emit _ _ A1). auto.
      - apply off_filter; assumption.
    Qed.
  End Nodes.
  Lemma off_expand_all f : off_expand f.
  Proof.
    induction f as [|f IH]; intros her ctx nodes lv st code z st' QH QC HL A E; [discriminate E|]. cbn [handle] in E. unfold handle_nodes in E.
    apply gbind_inv in E as ([[c1 z1] s1] & E1 & E). cbv beta iota zeta in E.
    destruct (off_list f her ctx lv nodes ltac:(apply Forall_forall; intros n _; apply off_all; assumption) _ _ _ _ HL A E1) as [-> A1].
    destruct (top_level lv); [|injection E as <- _ <-; auto]. apply gbind_inv in E as ([[c2 z2] s2] & E2 & E). injection E as <- _ <-.
    assert (A2 : Off (match next_ws (s_ws s1) with Some _ => do_flush_ws inp (Some (skip (s_ws s1))) s1 | None => s1 end)) by (destruct (next_ws _); [apply off_flush|]; exact A1).
    destruct (off_write _ _ _ _ A2 E2) as [-> A3]. auto.
  Qed.

  (** ** The top of the base template ([o = false]), and blocks that hold the block ([o = true]) *)
  Record Top (o : bool) (sup : option (str * nat)) (st : gst) (b : list writable) : Prop := { top_d : s_discard st = true; top_o : o_discard st = o; top_b : s_buf st = b;
    top_s : s_super st = sup; top_m : s_locals st = ch_empty }.
  Ltac top_solve := intros; match goal with H : Top _ _ _ _ |- _ => destruct H end; constructor; cbn; assumption.
  Lemma top_push o sup l st b : Top o sup st b -> Top o sup (push l st) b.
  Proof. intros H. unfold push. rewrite (top_d _ _ _ _ H). exact H. Qed.
  Lemma top_ws o sup w st b : Top o sup st b -> Top o sup (set_ws w st) b. Proof. top_solve. Qed.
  Lemma top_flush o sup l st b : Top o sup st b -> Top o sup (do_flush_ws inp l st) b.
  Proof. intros H. unfold do_flush_ws. destruct (flush_ws _ _ _). apply top_push, top_ws, H. Qed.
  Lemma top_prepare o sup l st b : Top o sup st b -> Top o sup (do_prepare_ws inp l st) b.
  Proof. intros H. apply top_ws, H. Qed.
  Lemma top_handle o sup w st b : Top o sup st b -> Top o sup (do_handle_ws inp w st) b.
  Proof. intros H. apply top_prepare, top_flush, H. Qed.
  Lemma top_lit o sup l st b st' : Top o sup st b -> do_visit_lit l st = GOk st' -> Top o sup st' b.
  Proof. intros H E. unfold do_visit_lit in E. destruct (visit_lit _ _) as [[w0 w]|]; [|discriminate E]. injection E as <-. apply top_push, top_ws, H. Qed.
  Lemma top_write sup st b code z st' : Top false sup st b -> write_buf_writable inp st = GOk (code, z, st') -> flushed inp ch_empty b code /\ Top false sup st' [].
  Proof.
    intros A E. unfold write_buf_writable in E. apply gbind_inv in E as ([[z' parts] n] & E1 & E). apply of_res_inv in E1.
    rewrite (top_m _ _ _ _ A), (top_b _ _ _ _ A) in E1. cbv beta iota zeta in E.
    assert (A' : Top false sup (set_named n (set_buf [] st)) []) by (destruct A; constructor; cbn; auto).
    assert (F : code = parts_code parts /\ st' = set_named n (set_buf [] st)).
    { unfold emit in E. rewrite (top_o _ _ _ _ A) in E. destruct parts.
      - injection E as <- _ <-. split; reflexivity.
      - apply gbind_inv in E as (u & _ & [= <- _ <-]). split; reflexivity.
      - destruct (63 <=? o_indent st); [discriminate E|]. apply gbind_inv in E as (u & _ & [= <- _ <-]). split; reflexivity. }
    destruct F as [-> ->]. split; [|exact A']. exists (s_named st), z', parts, n. split; [exact E1|reflexivity].
  Qed.
  Lemma top_empty o sup st code z st' : Top o sup st [] -> write_buf_writable inp st = GOk (code, z, st') -> code = [] /\ Top o sup st' [].
  Proof. intros A E. apply empty_write in E as [-> ->]; [|apply A]. split; [reflexivity|]. destruct A; constructor; cbn; auto. Qed.
  (** What waits is written at once or still waits. *)
  Definition out_of (b b' : list writable) (code : list stmt) : Prop := (code = [] /\ b' = b) \/ (flushed inp ch_empty b code /\ b' = []).
  Lemma out_trans b b1 b2 c1 c2 : out_of b b1 c1 -> out_of b1 b2 c2 -> out_of b b2 (c1 ++ c2).
  Proof.
    intros [[-> ->]|[F ->]] H2; [exact H2|]. assert (c2 = [] /\ b2 = []) as [-> ->].
    { destruct H2 as [[-> ->]|[F2 ->]]; [auto|]. split; [|reflexivity]. eapply flushed_nil_inv; exact F2. }
    rewrite app_nil_r. right. auto.
  Qed.
  Section Base.
    Variable f : nat.
    Variable her : option heritage.
    Variable ctx : context.
    Hypothesis HH : Qh her.
    Hypothesis HC : Qc ctx.
    Notation hn := (handle_node inp contexts find (handle inp contexts find f) her ctx).
    Lemma quiet_ok o sup lv n st b code z st' : quiet n = true -> Top o sup st b -> hn lv n st = GOk (code, z, st') -> code = [] /\ Top o sup st' b.
    Proof.
      intros HB A E. destruct n; try discriminate HB; cbn [handle_node] in E.
      - apply gbind_inv in E as (s & E1 & E). injection E as <- _ <-. split; [reflexivity|eapply top_lit; eassumption].
      - injection E as <- _ <-. split; [reflexivity|apply top_handle, A].
      - injection E as <- _ <-. split; [reflexivity|apply top_push, top_handle, A].
      - apply gbind_inv in E as (s & E1 & E). injection E as <- _ <-. split; [reflexivity|apply top_handle; eapply top_lit; [apply top_handle, A|exact E1]].
    Qed.
    (** Another block: what was waiting is written first, by [before]. *)
    Lemma another_ok o sup name outer st b code z st' (P : list stmt -> Prop) : mem_str name (x :: path) = false -> Top o sup st b ->
      (forall s c z s', Top o sup s b -> write_buf_writable inp s = GOk (c, z, s') -> P c /\ Top o sup s' []) ->
      write_block inp (handle inp contexts find f) her ctx (Some name) outer st = GOk (code, z, st') -> P code /\ Top o sup st' [].
    Proof.
      intros HB A HW E. unfold write_block in E. cbv zeta in E. set (s0 := do_flush_ws inp (ws_l outer) st) in *. assert (A0 : Top o sup s0 b) by apply top_flush, A.
      apply gbind_inv in E as (cur & Ecur & E). assert (cur = (name, O)) as ->.
      { destruct (s_super s0) as [[pv g]|]; [destruct (str_eqb name pv); [discriminate Ecur|]|]; injection Ecur as <-; reflexivity. }
      clear Ecur. apply gbind_inv in E as ([[c1 z1] s1] & E1 & E). cbv beta iota zeta in E. destruct (HW _ _ _ _ A0 E1) as [F1 A1].
      assert (Hf : match f_block inp with Some a => str_eqb a name | None => false end = false).
      { rewrite Hblock. destruct (str_eqb x name) eqn:K; [|reflexivity]. apply str_eqb_eq in K. subst. cbn [mem_str] in HB. rewrite str_eqb_refl in HB. discriminate HB. }
      rewrite Hf in E. cbn [andb] in E. clear Hf. revert HH E. destruct her as [h|]; [|discriminate]. intros HH' E. cbn [fst snd] in E. destruct (get name (h_blocks h)) as [defs|] eqn:Ed; [|discriminate E].
      destruct (nth_error defs 0) as [[cc def]|] eqn:En; [|discriminate E]. destruct (HH' _ _ _ _ Ed (nth_error_In _ _ En)) as [Q1 Q2].
      apply gbind_inv in E as ([[c2 z2] s2] & E2 & E). cbv beta iota zeta in E.
      assert (A2 : c2 = [] /\ Off s2).
      { refine (off_expand_all f (Some h) _ _ LBlock _ _ _ _ HH' (Qc_merge _ _ HC Q1) (Q2 HB) _ E2). constructor; cbn; [apply A1|apply A1|apply A1|]. intros y g [= <- _]. exact HB. }
      destruct A2 as [-> A2]. apply gbind_inv in E as ([[c3 z3] s3] & E3 & E). cbv beta iota zeta in E.
      assert (A3 : c3 = [] /\ Off s3) by (destruct (ch_is_current_empty _); [injection E3 as <- _ <-; auto|eapply off_write; eassumption]).
      destruct A3 as [-> A3]. injection E as <- _ <-. pose proof (off_flush (ws_l (b_ws2 def)) _ A3) as A4. split.
      - rewrite app_nil_r. exact F1.
      - apply top_prepare. constructor; cbn; [apply A4|apply A1|apply A4|apply A1|apply A1].
    Qed.
    Lemma beside_ok n st b code z st' : beside x path n = true -> Top false None st b -> hn LTop n st = GOk (code, z, st') -> exists b', Top false None st' b' /\ out_of b b' code.
    Proof.
      intros HB A E.
      assert (K : quiet n = true -> exists b', Top false None st' b' /\ out_of b b' code).
      { intros Q. destruct (quiet_ok _ _ _ _ _ _ _ _ _ Q A E) as [-> A']. exists b. split; [exact A'|left; auto]. }
      destruct n; try discriminate HB; try exact (K eq_refl); cbn [handle_node top_level] in E.
      - injection E as <- _ <-. exists b. split; [exact A|left; auto].
      - cbn [beside quiet another_block orb] in HB. exists []. apply and_comm.
        refine (another_ok false None _ _ _ b _ _ _ (out_of b []) (proj1 (negb_true_iff _) HB) A _ E). intros s c z0 s' T W. destruct (top_write _ _ _ _ _ _ T W) as [W1 W2]. split; [right; auto|exact W2].
      - injection E as <- _ <-. exists b. split; [apply top_handle, A|left; auto].
      - injection E as <- _ <-. exists b. split; [apply top_prepare, top_flush, A|left; auto].
    Qed.
    Lemma beside_list l : forallb (beside x path) l = true -> forall st b code z st', Top false None st b -> gen_list (hn LTop) l st = GOk (code, z, st') -> exists b', Top false None st' b' /\ out_of b b' code.
    Proof.
      induction l as [|n l IH]; intros HB st b code z st' A E; cbn [gen_list] in E.
      - injection E as <- _ <-. exists b. split; [exact A|left; auto].
      - cbn [forallb] in HB. apply andb_prop in HB as [B1 B2]. apply gbind_inv in E as ([[c1 z1] s1] & E1 & E). cbv beta iota zeta in E. apply gbind_inv in E as ([[c2 z2] s2] & E2 & E). injection E as <- _ <-.
        destruct (beside_ok _ _ _ _ _ _ B1 A E1) as (b1 & A1 & O1). destruct (IH B2 _ _ _ _ _ A1 E2) as (b2 & A2 & O2). exists b2. split; [exact A2|eapply out_trans; eassumption].
    Qed.
    Lemma quiet_list o sup lv l : forallb quiet l = true -> forall st b code z st', Top o sup st b -> gen_list (hn lv) l st = GOk (code, z, st') -> code = [] /\ Top o sup st' b.
    Proof.
      induction l as [|n l IH]; intros HB st b code z st' A E; cbn [gen_list] in E.
      - injection E as <- _ <-. auto.
      - cbn [forallb] in HB. apply andb_prop in HB as [B1 B2]. apply gbind_inv in E as ([[c1 z1] s1] & E1 & E). cbv beta iota zeta in E. apply gbind_inv in E as ([[c2 z2] s2] & E2 & E). injection E as <- _ <-.
        destruct (quiet_ok _ _ _ _ _ _ _ _ _ B1 A E1) as [-> A1]. exact (IH B2 _ _ _ _ _ A1 E2).
    Qed.
    Lemma aside_list o sup lv l : forallb (fun n => quiet n || another_block x path n) l = true -> forall st code z st', Top o sup st [] -> gen_list (hn lv) l st = GOk (code, z, st') ->
      code = [] /\ Top o sup st' [].
    Proof.
      induction l as [|n l IH]; intros HB st code z st' A E; cbn [gen_list] in E.
      - injection E as <- _ <-. auto.
      - cbn [forallb] in HB. apply andb_prop in HB as [B1 B2]. apply gbind_inv in E as ([[c1 z1] s1] & E1 & E). cbv beta iota zeta in E. apply gbind_inv in E as ([[c2 z2] s2] & E2 & E). injection E as <- _ <-.
        assert (A1 : c1 = [] /\ Top o sup s1 []).
        { destruct (quiet n) eqn:Q; [exact (quiet_ok _ _ _ _ _ _ _ _ _ Q A E1)|]. destruct n; try discriminate B1. cbn [handle_node another_block orb] in E1, B1.
          refine (another_ok o sup _ _ _ [] _ _ _ (fun c => c = []) (proj1 (negb_true_iff _) B1) A _ E1). intros s c z0 s' T W. exact (top_empty _ _ _ _ _ _ T W). }
        destruct A1 as [-> A1]. exact (IH B2 _ _ _ _ A1 E2).
    Qed.
  End Base.
  Lemma gen_list_app fn l1 l2 : forall st code z st', gen_list fn (l1 ++ l2) st = GOk (code, z, st') ->
    exists c1 z1 s1 c2 z2, gen_list fn l1 st = GOk (c1, z1, s1) /\ gen_list fn l2 s1 = GOk (c2, z2, st') /\ code = c1 ++ c2.
  Proof.
    induction l1 as [|n l1 IH]; intros st code z st' E; cbn [app gen_list] in E.
    - exists [], 0, st, code, z. auto.
    - apply gbind_inv in E as ([[c1 z1] s1] & E1 & E). cbv beta iota zeta in E. apply gbind_inv in E as ([[c2 z2] s2] & E2 & E). injection E as <- _ <-.
      destruct (IH _ _ _ _ E2) as (d1 & y1 & t1 & d2 & y2 & H1 & H2 & ->). exists (c1 ++ d1), (z1 + y1), t1, d2, y2. cbn [gen_list]. rewrite E1. cbn [gbind]. rewrite H1. cbn [gbind].
      rewrite app_assoc. auto.
  Qed.
  (** The block itself: as in a template of its own. *)
  Definition fresh (i : N) (n : nat) : gst := {| s_locals := ch_empty; s_ws := ws_init; s_super := None; s_buf := []; s_discard := false; s_named := n; o_indent := i; o_discard := false |}.
  Definition no_ws : ws := {| ws_l := None; ws_r := None |}.
  Lemma frag_block o sup expand her ctx outer st code z st' : Top o sup st [] -> write_block inp expand her ctx (Some x) outer st = GOk (code, z, st') ->
    exists i n st2, write_block inp expand her ctx (Some x) no_ws (fresh i n) = GOk (code, z, st2) /\ s_locals st2 = ch_empty /\ Top o sup st' (s_buf st2).
  Proof.
    intros A E. exists (o_indent st), (s_named st). unfold write_block in *. cbv zeta in *. pose proof (top_flush _ _ (ws_l outer) _ _ A) as A0.
    assert (I0 : o_indent (do_flush_ws inp (ws_l outer) st) = o_indent st /\ s_named (do_flush_ws inp (ws_l outer) st) = s_named st).
    { unfold do_flush_ws. destruct (flush_ws _ _ _). unfold push_lits, push. destruct (s_discard _); split; reflexivity. }
    destruct I0 as [I0 I1]. set (s0 := do_flush_ws inp (ws_l outer) st) in *. apply gbind_inv in E as (cur & Ecur & E). assert (cur = (x, O)) as ->.
    { destruct (s_super s0) as [[pv g]|]; [destruct (str_eqb x pv); [discriminate Ecur|]|]; injection Ecur as <-; reflexivity. }
    clear Ecur. apply gbind_inv in E as ([[c0 z0] s1] & E1 & E). cbv beta iota zeta in E.
    pose proof (empty_write _ _ _ _ (top_b _ _ _ _ A0) E1) as [-> ->]. cbn [gbind set_named set_buf s_discard s_locals s_ws s_super s_buf s_named o_indent o_discard fst snd] in E.
    rewrite (top_d _ _ _ _ A0), (top_o _ _ _ _ A0), (top_m _ _ _ _ A0), (top_s _ _ _ _ A0), I0, I1 in E. rewrite Hblock in *. cbv beta iota in *. rewrite str_eqb_refl in *. cbn [andb] in E.
    unfold do_flush_ws at 1. cbn.
    destruct her as [h|]; [|discriminate E]. destruct (get x (h_blocks h)) as [defs|]; [|discriminate E]. destruct defs as [|[cc def] defs]; [discriminate E|].
    cbn [nth_error] in E. apply gbind_inv in E as ([[c1 z1] s2] & E2 & E). cbv beta iota zeta in E. rewrite E2. cbn [gbind].
    apply gbind_inv in E as ([[c2 z2] s3] & E3 & E). cbv beta iota zeta in E. rewrite E3. cbn [gbind]. injection E as <- <- <-.
    eexists. split; [reflexivity|]. split; [reflexivity|]. apply top_prepare. constructor; reflexivity.
  Qed.
  (** A block that holds it writes the same. *)
  Lemma holds_ok h p ctx y last : holds x path h p ctx y last -> Qh (Some h) -> Qc ctx -> forall f o sup outer st code z st', Top o sup st [] ->
    write_block inp (handle inp contexts find f) (Some h) ctx (Some y) outer st = GOk (code, z, st') ->
    exists f' i n z' st2, f = (length p + f')%nat /\ write_block inp (handle inp contexts find f') (Some h) last (Some x) no_ws (fresh i n) = GOk (code, z', st2) /\
      s_locals st2 = ch_empty /\ Top o sup st' (s_buf st2).
  Proof.
    induction 1 as [ctx|y p ctx c d ds pre w1 v body w2 post last Hy Hd Hn Hpre Hpost _ IH]; intros QH QC f o sup outer st code z st' A E.
    - destruct (frag_block _ _ _ _ _ _ _ _ _ _ A E) as (i & n & st2 & E2 & M & T). exists f, i, n, z, st2. auto.
    - unfold write_block in E. cbv zeta in E. set (s0 := do_flush_ws inp (ws_l outer) st) in *. assert (A0 : Top o sup s0 []) by apply top_flush, A.
      apply gbind_inv in E as (cur & Ecur & E). assert (cur = (y, O)) as ->.
      { destruct (s_super s0) as [[pv g]|]; [destruct (str_eqb y pv); [discriminate Ecur|]|]; injection Ecur as <-; reflexivity. }
      clear Ecur. apply gbind_inv in E as ([[c1 z1] s1] & E1 & E). cbv beta iota zeta in E. destruct (top_empty _ _ _ _ _ _ A0 E1) as [-> A1].
      assert (Hf : match f_block inp with Some a => str_eqb a y | None => false end = false).
      { rewrite Hblock. destruct (str_eqb x y) eqn:K; [|reflexivity]. apply str_eqb_eq in K. congruence. }
      rewrite Hf in E. cbn [andb] in E. clear Hf. cbn [fst snd] in E. rewrite Hd in E. cbn [nth_error] in E. rewrite (top_d _ _ _ _ A1), (top_b _ _ _ _ A1) in E.
      apply gbind_inv in E as ([[c2 z2] s2] & E2 & E). cbv beta iota zeta in E. destruct f as [|f]; [discriminate E2|]. cbn [handle] in E2. unfold handle_nodes in E2. cbn [top_level] in E2.
      apply gbind_inv in E2 as ([[c3 z3] s3] & E2 & E3). cbv beta iota zeta in E3. injection E3 as -> _ ->. rewrite Hn in E2.
      destruct (QH _ _ _ _ Hd (or_introl eq_refl)) as [Q1 _]. pose proof (Qc_merge _ _ QC Q1) as QM.
      apply gen_list_app in E2 as (ca & za & sa & cb & zb & Ea & Eb & ->). cbn [gen_list] in Eb. apply gbind_inv in Eb as ([[cx zx] sx] & Ex & Eb). cbv beta iota zeta in Eb.
      apply gbind_inv in Eb as ([[cp zp] sp] & Ep & Eb). injection Eb as <- _ <-.
      match type of Ea with gen_list _ _ ?s = _ => assert (T0 : Top true (Some (y, O)) s []) by (constructor; reflexivity) end.
      destruct (aside_list f _ _ QH QM _ _ _ _ Hpre _ _ _ _ T0 Ea) as [-> Ta]. cbn [handle_node] in Ex.
      destruct (IH QH QM _ _ _ _ _ _ _ _ Ta Ex) as (f' & i & n & z' & st2 & -> & EX & M & Tx).
      destruct (quiet_list _ _ _ _ _ _ _ Hpost _ _ _ _ _ Tx Ep) as [-> Tp].
      rewrite (top_m _ _ _ _ Tp) in E. cbn [ch_is_current_empty ch_empty gbind] in E. injection E as <- _ <-.
      exists f', i, n, z', st2. split; [reflexivity|]. rewrite app_nil_r. cbn [app]. rewrite app_nil_r. split; [exact EX|]. split; [exact M|]. apply top_prepare.
      pose proof (top_flush _ _ (ws_l (b_ws2 d)) _ _ Tp) as Tf. constructor; cbn; [apply Tf|apply A1|apply Tf|apply A1|apply A1].
  Qed.

  Theorem frag_build fuel fuel' h ctx y last w1 body w2 pre post code z tns F w :
    Qh (Some h) -> Qc (h_root h) -> holds x path h path (h_root h) y last -> fuel = (length path + fuel')%nat ->
    c_nodes (h_root h) = pre ++ NBlockDef w1 y body w2 :: post -> forallb (beside x path) pre = true -> forallb (beside x path) post = true ->
    impl_template inp contexts find fuel (Some h) ctx = GOk (code, z) ->
    fragment inp contexts find x fuel' h last = GOk tns -> scoped F tns = true -> world_ok w -> render w inp tns <> Unset -> run w code = render w inp tns.
  Proof.
    intros QH QC HO HFu HN HP HQ E EF HS HW HU. unfold impl_template in E. cbv beta iota zeta in E. apply gbind_inv in E as ([[code0 z0] st0] & E & E0). cbv beta iota zeta in E0.
    assert (code0 = code) as -> by (repeat (apply gbind_inv in E0 as (? & _ & E0)); injection E0 as -> _; reflexivity). clear E0.
    destruct fuel as [|f]; [discriminate E|]. cbn [handle] in E. unfold handle_nodes in E. cbn [top_level] in E. rewrite HN in E.
    apply gbind_inv in E as ([[c1 z1] s1] & E1 & E). cbv beta iota zeta in E. apply gbind_inv in E as ([[cend zend] send] & E2 & E). injection E as <- _ _.
    apply gen_list_app in E1 as (ca & za & sa & cb & zb & Ea & Eb & ->). cbn [gen_list] in Eb. apply gbind_inv in Eb as ([[cx zx] sx] & Ex & Eb). cbv beta iota zeta in Eb.
    apply gbind_inv in Eb as ([[cp zp] sp] & Ep & Eb). injection Eb as <- _ <-.
    assert (T0 : Top false None (initial inp 2) []) by (constructor; cbn; rewrite ?Hblock; reflexivity).
    destruct (beside_list f (Some h) (h_root h) QH QC pre HP _ _ _ _ _ T0 Ea) as (ba & Ta & Oa).
    assert (ca = [] /\ ba = []) as [-> ->].
    { destruct Oa as [[-> ->]|[Fa ->]]; [auto|]. split; [|reflexivity]. eapply flushed_nil_inv; exact Fa. }
    cbn [handle_node] in Ex. destruct (holds_ok _ _ _ _ _ HO QH QC _ _ _ _ _ _ _ _ Ta Ex) as (f' & i & nm & zx' & st2 & -> & Ex2 & M2 & Tx).
    assert (fuel' = S f') as -> by lia. clear HFu.
    destruct (beside_list _ (Some h) (h_root h) QH QC post HQ _ _ _ _ _ Tx Ep) as (bp & Tp & Op).
    assert (Tq : Top false None (match next_ws (s_ws sp) with Some _ => do_flush_ws inp (Some (skip (s_ws sp))) sp | None => sp end) bp) by (destruct (next_ws _); [apply top_flush|]; exact Tp).
    destruct (top_write _ _ _ _ _ _ Tq E2) as [Fe _].
    assert (FL : flushed inp ch_empty (s_buf st2) (cp ++ cend)).
    { destruct Op as [[-> ->]|[Fp ->]]; [exact Fe|]. rewrite (flushed_nil_inv _ _ _ Fe), app_nil_r. exact Fp. }
    unfold fragment in EF. cbn [elab] in EF. unfold elab_nodes in EF. cbn [elab_list] in EF. cbn [elab_node alone] in EF. cbn [ws_l ws_r] in EF.
    assert (AF : At (fresh i nm) ch_empty ws_init None []) by (constructor; reflexivity).
    pose proof (block_ok inp contexts find f' (expand_all inp contexts find f') (Some h) last _ _ _ _ _ _ _ _ _ _ AF Ex2) as HJ. unfold no_ws in HJ.
    destruct (elab_block inp (elab inp contexts find f') (Some h) last None (Some x) {| ws_l := None; ws_r := None |} ws_init) as [[t wt]| | |] eqn:EB; try discriminate EF.
    cbn [gbind] in EF.
    assert (Ht : tns = t).
    { unfold elab_block in EB. cbn in EB. destruct (get x (h_blocks h)) as [[|[cc def] defs]|]; try discriminate EB. cbn [nth_error] in EB.
      apply gbind_inv in EB as ([tb wb] & _ & EB). cbv beta iota in EB. destruct (w_flush _ _ _). injection EB as <- <-. cbn in EF. injection EF as <-. reflexivity. }
    subst tns. rewrite <- !app_assoc. cbn [app].
    destruct HJ as [([t' wt'] & Et & m' & b' & A' & HC)|Bad].
    - injection Et as <- <-. cbn [fst] in HC. assert (m' = ch_empty) as -> by (rewrite <- (at_m _ _ _ _ _ A'); exact M2). rewrite (at_b _ _ _ _ _ A') in FL.
      eapply render_list; eassumption.
    - exfalso. specialize (Bad _ eq_refl). unfold badl in Bad. cbn [fst] in Bad. apply andb_prop in HS as [_ HS].
      rewrite (clean_closed t [] [] F []) in Bad; [discriminate Bad| |exact HS]. apply Forall_forall. intros n _. apply scoped_clean.
  Qed.
End Off.
