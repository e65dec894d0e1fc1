(** * The generator follows the template put together: [handle] does what [elab] and GenSteps.v say. *)
From Verif Require Import Base Ws Ast Ident IdentFacts GenExpr Heritage Gen Sem RefSem Scoped HeritageFacts SimExpr SimFacts GenSteps.
From Coq Require Import Lia.
Local Open Scope N_scope.

Section NodeInd.
  Variable P : node -> Prop.
  Definition cond_all (c : cond) : Prop := match c with Cond _ _ ns => Forall P ns end.
  Definition when_all (c : when_) : Prop := match c with When _ _ ns => Forall P ns end.
  Hypothesis Hlit : forall l, P (NLit l).
  Hypothesis Hcomment : forall w s, P (NComment w s).
  Hypothesis Hexpr : forall w e, P (NExpr w e).
  Hypothesis Hcall : forall w s x l, P (NCall w s x l).
  Hypothesis Hlet : forall w t e, P (NLet w t e).
  Hypothesis Hif : forall w cs, Forall cond_all cs -> P (NIf w cs).
  Hypothesis Hmatch : forall w1 e arms w2, Forall when_all arms -> P (NMatch w1 e arms w2).
  Hypothesis Hloop : forall w1 t it c body w2 els w3, Forall P body -> Forall P els -> P (NLoop w1 t it c body w2 els w3).
  Hypothesis Hextends : forall s, P (NExtends s).
  Hypothesis Hblock : forall w1 x l w2, P (NBlockDef w1 x l w2).
  Hypothesis Hinclude : forall w s, P (NInclude w s).
  Hypothesis Himport : forall w s x, P (NImport w s x).
  Hypothesis Hmacro : forall w1 x a l w2, P (NMacro w1 x a l w2).
  Hypothesis Hraw : forall w1 l w2, P (NRaw w1 l w2).
  Hypothesis Hbreak : forall w, P (NBreak w).
  Hypothesis Hcontinue : forall w, P (NContinue w).
  Hypothesis Hfilter : forall w1 x a l w2, Forall P l -> P (NFilterBlock w1 x a l w2).
  Fixpoint node_ind' (n : node) : P n :=
    let many := fix many (l : list node) : Forall P l :=
      match l with [] => Forall_nil P | n :: l' => Forall_cons n (node_ind' n) (many l') end in
    match n with
    | NLit l => Hlit l | NComment w s => Hcomment w s | NExpr w e => Hexpr w e | NCall w s x l => Hcall w s x l
    | NLet w t e => Hlet w t e
    | NIf w cs => Hif w cs ((fix f (l : list cond) : Forall cond_all l :=
        match l with [] => Forall_nil _ | (Cond _ _ ns) as c :: l' => Forall_cons c (many ns : cond_all (Cond _ _ ns)) (f l') end) cs)
    | NMatch w1 e arms w2 => Hmatch w1 e arms w2 ((fix f (l : list when_) : Forall when_all l :=
        match l with [] => Forall_nil _ | (When _ _ ns) as c :: l' => Forall_cons c (many ns : when_all (When _ _ ns)) (f l') end) arms)
    | NLoop w1 t it c body w2 els w3 => Hloop w1 t it c body w2 els w3 (many body) (many els)
    | NExtends s => Hextends s | NBlockDef w1 x l w2 => Hblock w1 x l w2 | NInclude w s => Hinclude w s | NImport w s x => Himport w s x
    | NMacro w1 x a l w2 => Hmacro w1 x a l w2 | NRaw w1 l w2 => Hraw w1 l w2 | NBreak w => Hbreak w | NContinue w => Hcontinue w
    | NFilterBlock w1 x a l w2 => Hfilter w1 x a l w2 (many l)
    end.
End NodeInd.

Definition J {A} (r : gres A) (bad good : A -> Prop) : Prop := (exists x, r = GOk x /\ good x) \/ (forall x, r = GOk x -> bad x).
Lemma J_ret {A} (x : A) (bad good : A -> Prop) : good x -> J (GOk x) bad good.
Proof. intros H. left. eauto. Qed.
Lemma J_bad {A} (r : gres A) (bad good : A -> Prop) : (forall x, r = GOk x -> bad x) -> J r bad good.
Proof. intros H. right. exact H. Qed.
Lemma J_bind {A B} (r : gres A) (k : A -> gres B) bad good bad' good' : J r bad good -> (forall x, good x -> J (k x) bad' good') ->
  (forall x y, bad x -> k x = GOk y -> bad' y) -> J (gbind r k) bad' good'.
Proof.
  intros [(x & -> & G)|Bd] H1 H2; cbn [gbind]; [apply H1, G|].
  right. intros y E. apply gbind_inv in E as (x & E1 & E2). eapply H2; [apply Bd, E1|exact E2].
Qed.
Lemma J_weak {A} (r : gres A) (bad good bad' good' : A -> Prop) : J r bad good -> (forall x, bad x -> bad' x) -> (forall x, good x -> good' x) -> J r bad' good'.
Proof. intros [(x & E & G)|B] H1 H2; [left|right]; eauto. Qed.

Section Elab.
  Variable inp : ginput.
  Variable contexts : list (str * context).
  Variable find : str -> str -> res str.

  (** What a state of the generator says *)
  Record At (st : gst) (m : chain) (w : wstate) (sup : option (str * nat)) (b : list writable) : Prop :=
    { at_m : s_locals st = m; at_w : s_ws st = w; at_s : s_super st = sup; at_b : s_buf st = b;
      at_d : s_discard st = false; at_o : o_discard st = false }.
  Ltac at_solve := intros; match goal with H : At _ _ _ _ _ |- _ => destruct H end; constructor; cbn; congruence.

  Lemma at_push st m w sup b l : At st m w sup b -> At (push l st) m w sup (b ++ l).
  Proof. intros [? ? ? ? D ?]. unfold push. rewrite D. constructor; cbn; congruence. Qed.
  Lemma at_set_ws st m w w' sup b : At st m w sup b -> At (set_ws w' st) m w' sup b.
  Proof. at_solve. Qed.
  Lemma at_locals st m m' w sup b : At st m w sup b -> At (set_locals m' st) m' w sup b.
  Proof. at_solve. Qed.
  Lemma at_buf st m w sup b b' : At st m w sup b -> At (set_buf b' st) m w sup b'.
  Proof. at_solve. Qed.
  Lemma at_named st m w sup b n : At st m w sup b -> At (set_named n st) m w sup b.
  Proof. at_solve. Qed.
  Lemma at_indent st m w sup b i : At st m w sup b -> At (set_indent i st) m w sup b.
  Proof. at_solve. Qed.
  Lemma at_flush l st m w sup b : At st m w sup b -> exists ls w', w_flush inp l w = (texts ls, w') /\ At (do_flush_ws inp l st) m w' sup (b ++ map WLit ls).
  Proof.
    intros A. unfold w_flush, do_flush_ws. rewrite (at_w _ _ _ _ _ A). destruct (flush_ws (f_ws inp) l w) as [ls w'].
    exists ls, w'. split; [reflexivity|]. apply at_push, (at_set_ws _ _ w), A.
  Qed.
  Lemma at_prepare r st m w sup b : At st m w sup b -> At (do_prepare_ws inp r st) m (w_prepare inp r w) sup b.
  Proof. intros A. unfold do_prepare_ws, w_prepare. rewrite (at_w _ _ _ _ _ A). apply (at_set_ws _ _ w), A. Qed.
  Lemma at_handle x st m w sup b : At st m w sup b -> exists ls w', w_handle inp x w = (texts ls, w') /\ At (do_handle_ws inp x st) m w' sup (b ++ map WLit ls).
  Proof.
    intros A. destruct (at_flush (ws_l x) _ _ _ _ _ A) as (ls & w' & E & A'). unfold w_handle, do_handle_ws. rewrite E.
    eexists _, _. split; [reflexivity|]. apply at_prepare, A'.
  Qed.
  Lemma at_lit l st m w sup b st' : At st m w sup b -> do_visit_lit l st = GOk st' ->
    exists ls w', w_lit l w = GOk (texts ls, w') /\ At st' m w' sup (b ++ map WLit ls).
  Proof.
    intros A E. unfold do_visit_lit in E. unfold w_lit. rewrite (at_w _ _ _ _ _ A) in E. destruct (visit_lit l w) as [[ls w']|]; [|discriminate E].
    injection E as <-. exists ls, w'. split; [reflexivity|]. apply at_push, (at_set_ws _ _ w), A.
  Qed.
  Lemma at_open st m w sup b : At st m w sup b -> At (open_brace st) m w sup b.
  Proof. intros A. unfold open_brace. rewrite (at_o _ _ _ _ _ A). apply at_indent, A. Qed.
  Lemma at_dedent st m w sup b st' : At st m w sup b -> dedent st = GOk st' -> At st' m w sup b.
  Proof. intros A E. unfold dedent in E. destruct (o_indent st =? 0); [discriminate E|]. injection E as <-. apply at_indent, A. Qed.
  Lemma at_close st m w sup b st' : At st m w sup b -> close_brace st = GOk st' -> At st' m w sup b.
  Proof.
    intros A E. unfold close_brace in E. rewrite (at_o _ _ _ _ _ A) in E. apply gbind_inv in E as (s & E1 & E). apply gbind_inv in E as (u & _ & [= <-]).
    eapply at_dedent; eassumption.
  Qed.
  Lemma at_pushl st m w sup b : At st m w sup b -> At (push_locals st) (ch_push m) w sup b.
  Proof. intros A. unfold push_locals. rewrite (at_m _ _ _ _ _ A). eapply at_locals, A. Qed.
  Lemma at_popl st m w sup b st' : At st m w sup b -> pop_locals st = GOk st' -> exists m', ch_pop m = Ok m' /\ At st' m' w sup b.
  Proof.
    intros A E. unfold pop_locals in E. rewrite (at_m _ _ _ _ _ A) in E. apply gbind_inv in E as (m' & E1 & [= <-]). apply of_res_inv in E1.
    exists m'. split; [exact E1|]. eapply at_locals, A.
  Qed.
  Lemma at_write st m w sup b code z st' : At st m w sup b -> write_buf_writable inp st = GOk (code, z, st') ->
    flushed inp m b code /\ At st' m w sup [].
  Proof.
    intros A E. unfold write_buf_writable in E. apply gbind_inv in E as ([[z' parts] n] & E1 & E). apply of_res_inv in E1.
    rewrite (at_m _ _ _ _ _ A), (at_b _ _ _ _ _ A) in E1. cbv beta iota zeta in E.
    assert (A' : At (set_named n (set_buf [] st)) m w sup []) by (eapply at_named, at_buf, A).
    assert (F : code = parts_code parts /\ st' = set_named n (set_buf [] st)).
    { unfold emit in E. rewrite (at_o _ _ _ _ _ A) in E. destruct parts.
      - injection E as <- _ <-. split; reflexivity.
      - apply gbind_inv in E as (u & _ & [= <- _ <-]). split; reflexivity.
      - destruct (63 <=? o_indent st); [discriminate E|]. apply gbind_inv in E as (u & _ & [= <- _ <-]). split; reflexivity. }
    destruct F as [-> ->]. split; [|exact A']. exists (s_named st), z', parts, n. split; [exact E1|reflexivity].
  Qed.
  Lemma flushed_nil_inv m code : flushed inp m [] code -> code = [].
  Proof. intros (n & z & p & n' & E & ->). cbn in E. injection E as _ <- _. reflexivity. Qed.
  Lemma emit_at st m w sup b l : At st m w sup b -> emit st l = l.
  Proof. intros A. unfold emit. rewrite (at_o _ _ _ _ _ A). reflexivity. Qed.
  Lemma emit_around_at st m w sup b s l : At st m w sup b -> emit_around st s l = [s].
  Proof. intros A. unfold emit_around. rewrite (at_o _ _ _ _ _ A). reflexivity. Qed.
  Lemma cg_texts_end m b ts c m' b' ls : cg_list inp m b ts c m' b' -> cg_list inp m b (ts ++ texts ls) c m' (b' ++ map WLit ls).
  Proof. intros H. rewrite <- (app_nil_r c). eapply cg_app; [exact H|apply cg_only_texts]. Qed.

  Lemma pop_push m m' : ch_pop m = Ok m' -> ch_pop (ch_push m) = Ok m.
  Proof. destruct m as [p [|s ss]]; [discriminate|reflexivity]. Qed.

  (** A body of output leaves something in the buffer. *)
  Lemma cg_output ts : forall m b c m' b', cg_list inp m b ts c m' b' -> forallb only_output ts = true -> b <> [] \/ ts <> [] -> b' <> [].
  Proof.
    induction ts as [|t ts IH]; intros m b c m' b' H F N; inversion H; subst; clear H.
    - destruct N as [N|N]; [exact N|destruct N; reflexivity].
    - cbn [forallb] in F. apply andb_true_iff in F as [F1 F2]. eapply IH; [eassumption|exact F2|]. left.
      match goal with H : cg_node _ _ _ _ _ _ _ |- _ => inversion H; subst; try discriminate F1 end; intros Z; apply app_eq_nil in Z as [_ Z]; discriminate Z.
  Qed.

  Definition badl (x : list tnode * wstate) : Prop := junks (fst x) = true.
  Definition goodl (m : chain) (b : list writable) (sup : option (str * nat)) (code : list stmt) (st' : gst) (x : list tnode * wstate) : Prop :=
    exists m' b', At st' m' (snd x) sup b' /\ cg_list inp m b (fst x) code m' b'.
  Definition expand_ok (f : nat) : Prop := forall her ctx nodes lv st code z st' m w sup b,
    At st m w sup b -> handle inp contexts find f her ctx nodes lv st = GOk (code, z, st') ->
    J (elab inp contexts find f her ctx sup nodes (top_level lv) w) badl
      (fun x => if top_level lv
                then exists c1 c2 m' b', code = c1 ++ c2 /\ cg_list inp m b (fst x) c1 m' b' /\ flushed inp m' b' c2 /\ At st' m' (snd x) sup []
                else goodl m b sup code st' x).

  Section Nodes.
    Variable f : nat.
    Hypothesis HE : expand_ok f.
    Variable her : option heritage.
    Variable ctx : context.
    Notation hn := (handle_node inp contexts find (handle inp contexts find f) her ctx).
    Notation en sup := (elab_node inp contexts find (elab inp contexts find f) her ctx sup).
    Definition node_ok (n : node) : Prop := forall lv st code z st' m w sup b,
      At st m w sup b -> hn lv n st = GOk (code, z, st') -> J (en sup n w) badl (goodl m b sup code st').

    Ltac ginv E := apply gbind_inv in E as (? & ? & E); cbv beta iota zeta in E.
    Ltac jk Bd := unfold badl in *; cbn [fst snd] in *;
      repeat (rewrite ?junks_app, ?junk_if, ?junk_match, ?junk_for, ?junk_block, ?junk_include, ?junk_macro, ?junk_filter; cbn [junks]);
      rewrite Bd; repeat first [rewrite orb_true_r | rewrite orb_true_l]; reflexivity.

    Lemma list_ok lv l : Forall node_ok l -> forall st code z st' m w sup b,
      At st m w sup b -> gen_list (hn lv) l st = GOk (code, z, st') -> J (elab_list (en sup) l w) badl (goodl m b sup code st').
    Proof.
      induction 1 as [|n l Hn _ IH]; intros st code z st' m w sup b A E; cbn [gen_list elab_list] in *.
      - injection E as <- _ <-. apply J_ret. exists m, b. split; [exact A|apply cg_nil].
      - apply gbind_inv in E as ([[c1 z1] s1] & E1 & E). apply gbind_inv in E as ([[c2 z2] s2] & E2 & E). injection E as <- _ <-.
        eapply J_bind; [eapply Hn; eassumption| |].
        + intros [t1 w1] (m1 & b1 & A1 & G1). cbn [fst snd] in *. eapply J_bind; [eapply IH; eassumption| |].
          * intros [t2 w2] (m2 & b2 & A2 & G2). cbn [fst snd] in *. apply J_ret. exists m2, b2. cbn [fst snd]. split; [exact A2|]. eapply cg_app; eassumption.
          * intros [t2 w2] y Bd [= <-]. unfold badl in *. cbn [fst] in *. rewrite junks_app, Bd. apply orb_true_r.
        + intros [t1 w1] y Bd Ey. apply gbind_inv in Ey as ([t2 w2] & _ & [= <-]). unfold badl in *. cbn [fst] in *. rewrite junks_app, Bd. reflexivity.
    Qed.

    (** if *)
    Lemma test_ok first test st m w sup b t st' : At st m w sup b -> if_test inp first test st = GOk (t, st') ->
      exists m', test_code inp m test t m' /\ At st' m' w sup b.
    Proof.
      intros A E. unfold if_test in E. unfold test_code. destruct test as [[tg e]|]; cbn [ct_target ct_expr] in *.
      - apply gbind_inv in E as (s & E1 & E). assert (A1 : At s m w sup b).
        { destruct first; [injection E1 as <-; exact A|eapply at_dedent; eassumption]. }
        apply gbind_inv in E as (u & _ & E). destruct tg as [p|].
        + rewrite (at_m _ _ _ _ _ A1) in E.
          assert (S : forall e, (let* e' := of_res (visit_expr_root inp m e) in
                      let* (p', m0) := of_res (visit_target m true p) in GOk (RIfLet p' e', set_locals m0 s)) = GOk (t, st') ->
                      exists m', (exists e' p', visit_expr_root inp m e = Ok e' /\ visit_target m true p = Ok (p', m') /\ t = RIfLet p' e') /\ At st' m' w sup b).
          { clear E. intros e0 E. apply gbind_inv in E as (e' & E2 & E). apply gbind_inv in E as ([p' m0] & E3 & [= <- <-]).
            apply of_res_inv in E2, E3. exists m0. split; [eauto|]. eapply at_locals, A1. }
          destruct e; try (apply S, E). destruct (str_eqb op (lit "||") || str_eqb op (lit "&&")); [|apply S, E].
          apply gbind_inv in E as (l' & E2 & E). apply gbind_inv in E as ([p' m0] & E3 & E). apply gbind_inv in E as (r' & E4 & [= <- <-]).
          apply of_res_inv in E2, E3, E4. exists m0. split; [exists l', p', r'; auto|]. eapply at_locals, A1.
        + apply gbind_inv in E as (e' & E2 & [= <- <-]). apply of_res_inv in E2. rewrite (at_m _ _ _ _ _ A1) in E2. exists m. split; [eauto|exact A1].
      - apply gbind_inv in E as (s & E1 & E). apply gbind_inv in E as (u & _ & [= <- <-]). exists m. split; [auto|]. eapply at_dedent; eassumption.
    Qed.
    Definition badb {A} (x : list tnode * list (A * list tnode) * wstate) : Prop := junks_in (snd (fst x)) = true.
    Lemma branches_ok w_end cs : Forall (cond_all node_ok) cs -> forall first st code rbs z sizes he st' m w sup b, At st m w sup b ->
      gen_branches inp (hn LNested) w_end first cs st = GOk (code, rbs, z, sizes, he, st') -> cs <> [] \/ first = false ->
      J (elab_branches inp (en sup) w_end cs w) badb
        (fun x => exists ls m1 m', fst (fst x) = texts ls /\ flushed inp m (b ++ map WLit ls) code /\
                    (if first then m1 = m else ch_pop m = Ok m1) /\ cg_branches inp m1 (snd (fst x)) rbs m' /\ At st' m' (snd x) sup []).
    Proof.
      induction 1 as [|c cs Hc _ IH]; intros first st code rbs z sizes he st' m w sup b A E Hn; cbn [gen_branches elab_branches] in *.
      - destruct Hn as [Hn| ->]; [destruct Hn; reflexivity|].
        destruct (at_handle w_end _ _ _ _ _ A) as (ls & w' & -> & A1). cbv zeta in E.
        apply gbind_inv in E as ([[c1 z1] s1] & E1 & E). destruct (at_write _ _ _ _ _ _ _ _ A1 E1) as [F1 A2].
        apply gbind_inv in E as (s2 & E2 & E). pose proof (at_close _ _ _ _ _ _ A2 E2) as A3.
        apply gbind_inv in E as (s3 & E3 & E). destruct (at_popl _ _ _ _ _ _ A3 E3) as (m1 & P & A4). injection E as <- <- _ _ _ <-.
        apply J_ret. exists ls, m1, m1. cbn [fst snd]. split; [reflexivity|]. split; [exact F1|]. split; [exact P|]. split; [apply cb_nil|exact A4].
      - destruct c as [wc test nodes]. cbn [cond_all] in Hc. cbv zeta in E.
        destruct (at_handle wc _ _ _ _ _ A) as (ls & w' & -> & A1).
        apply gbind_inv in E as ([[c1 z1] s1] & E1 & E). destruct (at_write _ _ _ _ _ _ _ _ A1 E1) as [F1 A2].
        apply gbind_inv in E as (s2 & E2 & E).
        assert (P : exists m1, (if first then m1 = m else ch_pop m = Ok m1) /\ At s2 m1 w' sup []).
        { destruct first; [injection E2 as <-; eauto|]. destruct (at_popl _ _ _ _ _ _ A2 E2) as (m1 & P & A3). eauto. }
        destruct P as (m1 & P & A3).
        apply gbind_inv in E as ([t s3] & E3 & E). destruct (test_ok _ _ _ _ _ _ _ _ _ (at_pushl _ _ _ _ _ A3) E3) as (m2 & T & A4).
        apply gbind_inv in E as ([[c4 z4] s4] & E4 & E). apply gbind_inv in E as ([[[[[c5 rbs5] z5] sz5] he5] s5] & E5 & E).
        injection E as <- <- _ _ _ <-.
        eapply J_bind; [eapply list_ok; [exact Hc|apply at_open; exact A4|exact E4]| |].
        + intros [tb wb] (m4 & b4 & A5 & G4). cbn [fst snd] in *.
          eapply J_bind; [eapply IH; [exact A5|exact E5|right; reflexivity]| |].
          * intros [[ta bs] wa] (ls5 & m5 & m6 & T5 & F5 & P5 & G5 & A6). cbn [fst snd] in *. subst ta. apply J_ret.
            exists ls, m1, m6. cbn [fst snd]. split; [reflexivity|]. split; [exact F1|]. split; [exact P|]. split; [|exact A6].
            eapply cb_cons; [exact T|apply cg_texts_end; exact G4|exact F5|exact P5|exact G5].
          * intros [[ta bs] wa] y Bd [= <-]. unfold badb in *. cbn [fst snd junks_in] in *. fold (@junks_in (option cond_test)). rewrite Bd. apply orb_true_r.
        + intros [tb wb] y Bd Ey. apply gbind_inv in Ey as ([[ta bs] wa] & _ & [= <-]). unfold badb, badl in *. cbn [fst snd junks_in] in *.
          rewrite junks_app, Bd. reflexivity.
    Qed.

    (** match *)
    Lemma arms_ok w_end arms : Forall (when_all node_ok) arms -> forall st code z rarms sizes st' m w sup b, At st m w sup b ->
      gen_arms inp (hn LNested) w_end false arms st = GOk (code, z, rarms, sizes, st') ->
      J (elab_arms inp (en sup) w_end arms w) badb
        (fun x => exists ls m1 m', fst (fst x) = texts ls /\ flushed inp m (b ++ map WLit ls) code /\
                    ch_pop m = Ok m1 /\ cg_arms inp m1 (snd (fst x)) rarms m' /\ At st' m' (snd x) sup []).
    Proof.
      induction 1 as [|c cs Hc _ IH]; intros st code z rarms sizes st' m w sup b A E; cbn [gen_arms elab_arms] in *.
      - destruct (at_handle w_end _ _ _ _ _ A) as (ls & w' & -> & A1). cbv zeta in E.
        apply gbind_inv in E as ([[c1 z1] s1] & E1 & E). destruct (at_write _ _ _ _ _ _ _ _ A1 E1) as [F1 A2].
        apply gbind_inv in E as (s2 & E2 & E). pose proof (at_close _ _ _ _ _ _ A2 E2) as A3.
        apply gbind_inv in E as (s3 & E3 & E). destruct (at_popl _ _ _ _ _ _ A3 E3) as (m1 & P & A4). injection E as <- _ <- _ <-.
        apply J_ret. exists ls, m1, m1. cbn [fst snd]. split; [reflexivity|]. split; [exact F1|]. split; [exact P|]. split; [apply ca_nil|exact A4].
      - destruct c as [wc p nodes]. cbn [when_all] in Hc. cbv zeta in E.
        destruct (at_handle wc _ _ _ _ _ A) as (ls & w' & -> & A1).
        apply gbind_inv in E as ([[c1 z1] s1] & E1 & E). apply gbind_inv in E1 as ([[c0 z0] s0] & E0 & E1). destruct (at_write _ _ _ _ _ _ _ _ A1 E0) as [F1 A2].
        apply gbind_inv in E1 as (s2 & E2 & E1). pose proof (at_close _ _ _ _ _ _ A2 E2) as A3.
        apply gbind_inv in E1 as (s3 & E3 & E1). destruct (at_popl _ _ _ _ _ _ A3 E3) as (m1 & P & A4). injection E1 as <- _ <-.
        apply gbind_inv in E as (u & _ & E). apply gbind_inv in E as ([p' m2] & E6 & E). apply of_res_inv in E6.
        apply at_pushl in A4. rewrite (at_m _ _ _ _ _ A4) in E6.
        apply gbind_inv in E as ([[c4 z4] s4] & E4 & E). apply gbind_inv in E as ([[[[c5 z5] r5] sz5] s5] & E5 & E).
        injection E as <- _ <- _ <-.
        eapply J_bind; [eapply list_ok; [exact Hc|apply at_open; eapply at_locals; exact A4|exact E4]| |].
        + intros [tb wb] (m4 & b4 & A5 & G4). cbn [fst snd] in *.
          eapply J_bind; [eapply IH; [exact A5|exact E5]| |].
          * intros [[ta bs] wa] (ls5 & m5 & m6 & T5 & F5 & P5 & G5 & A6). cbn [fst snd] in *. subst ta. apply J_ret.
            exists ls, m1, m6. cbn [fst snd]. split; [reflexivity|]. split; [exact F1|]. split; [exact P|]. split; [|exact A6].
            eapply ca_cons; [exact E6|apply cg_texts_end; exact G4|exact F5|exact P5|exact G5].
          * intros [[ta bs] wa] y Bd [= <-]. unfold badb in *. cbn [fst snd junks_in] in *. fold (@junks_in target). rewrite Bd. apply orb_true_r.
        + intros [tb wb] y Bd Ey. apply gbind_inv in Ey as ([[ta bs] wa] & _ & [= <-]). unfold badb, badl in *. cbn [fst snd junks_in] in *.
          rewrite junks_app, Bd. reflexivity.
    Qed.
    Lemma match_ok w1 e arms w2 : Forall (when_all node_ok) arms -> node_ok (NMatch w1 e arms w2).
    Proof.
      intros Ha lv st code z st' m w sup b A E. cbn [handle_node elab_node] in *. cbv zeta in E.
      destruct (at_flush (ws_l w1) _ _ _ _ _ A) as (ls & w' & -> & A1).
      apply gbind_inv in E as ([[c1 z1] s1] & E1 & E). destruct (at_write _ _ _ _ _ _ _ _ A1 E1) as [F1 A2].
      apply gbind_inv in E as (r & E2 & E). apply of_res_inv in E2. rewrite (at_m _ _ _ _ _ A2) in E2.
      apply gbind_inv in E as (u & _ & E). apply gbind_inv in E as ([[[[c3 z3] rarms] sizes] s3] & E3 & E).
      apply gbind_inv in E as (s4 & E4 & E). apply gbind_inv in E as (zz & E5 & E). apply of_res_inv in E5.
      destruct Ha as [|c arms Hc Ha].
      { exfalso. cbn [gen_arms] in E3. cbv zeta in E3. apply gbind_inv in E3 as ([[? ?] ?] & _ & E3). apply gbind_inv in E3 as (? & _ & E3).
        apply gbind_inv in E3 as (? & _ & E3). injection E3 as _ _ _ <- _. vm_compute in E5. discriminate E5. }
      cbn [gen_arms elab_arms] in *. destruct c as [wc p nodes]. cbn [when_all] in Hc. cbv zeta in E3.
      pose proof (at_open _ _ _ _ _ A2) as A3.
      destruct (at_handle wc _ _ _ _ _ A3) as (ls1 & w1' & -> & A4). cbn [app] in A4.
      cbn [gbind] in E3. apply gbind_inv in E3 as (u' & _ & E3). apply gbind_inv in E3 as ([p' m2] & E6 & E3). apply of_res_inv in E6.
      apply at_pushl in A4. rewrite (at_m _ _ _ _ _ A4) in E6.
      apply gbind_inv in E3 as ([[c4 z4] s5] & E7 & E3). apply gbind_inv in E3 as ([[[[c5 z5] r5] sz5] s6] & E8 & E3).
      injection E3 as <- _ <- _ <-. injection E as <- _ <-.
      eapply J_bind; [eapply J_bind with (bad' := badb)
        (good' := fun x => exists m', cg_arms inp m (match snd (fst x) with [] => [] | (q, bb) :: l => (q, fst (fst x) ++ bb) :: l end) ((p', c4 ++ c5) :: r5) m' /\ At s4 m' (snd x) sup [])| |].
      - eapply list_ok; [exact Hc|apply at_open; eapply at_locals; exact A4|exact E7].
      - intros [tb wb] (m4 & b4 & A5 & G4). cbn [fst snd] in *.
        eapply J_bind; [eapply arms_ok; [exact Ha|exact A5|exact E8]| |].
        + intros [[ta bs] wa] (ls5 & m5 & m6 & T5 & F5 & P5 & G5 & A6). cbn [fst snd] in *. subst ta. apply J_ret.
          exists m6. cbn [fst snd]. split; [|eapply at_close; eassumption].
          rewrite app_assoc. eapply ca_cons; [exact E6|apply cg_texts_end; apply cg_texts; exact G4|exact F5|exact P5|exact G5].
        + intros [[ta bs] wa] y Bd [= <-]. unfold badb in *. cbn [fst snd junks_in] in *. fold (@junks_in target). rewrite Bd. apply orb_true_r.
      - intros [tb wb] y Bd Ey. apply gbind_inv in Ey as ([[ta bs] wa] & _ & [= <-]). unfold badb, badl in *. cbn [fst snd junks_in] in *.
        rewrite junks_app, Bd. reflexivity.
      - intros [[ta bs] wa] (m' & G & A5). cbn [fst snd] in *. apply J_ret. exists m', []. cbn [fst snd]. split; [exact A5|].
        rewrite (emit_around_at _ _ _ _ _ _ _ A5). apply cg_texts_one. eapply cg_match; eassumption.
      - intros [[ta bs] wa] y Bd [= <-]. unfold badb, badl in *. cbn [fst snd] in *. rewrite junks_app. cbn [junks]. rewrite junk_match.
        destruct bs as [|[q bb] bs]; cbn [junks_in] in *; [discriminate Bd|]. rewrite junks_app. fold (@junks_in target) in *.
        destruct (junks bb); [rewrite ?orb_true_r; reflexivity|]. cbn [orb] in Bd. rewrite Bd, ?orb_true_r. reflexivity.
    Qed.
    Lemma if_ok w cs : Forall (cond_all node_ok) cs -> node_ok (NIf w cs).
    Proof.
      intros Hc lv st code z st' m ww sup b A E. cbn [handle_node elab_node] in *.
      apply gbind_inv in E as ([[[[[c1 rbs] z1] sz] he] s1] & E1 & E). apply gbind_inv in E as (zz & E2 & E). injection E as <- _ <-.
      destruct cs as [|c0 cs0].
      { apply J_bad. intros [t w'] Ex. cbn [elab_branches] in Ex. destruct (w_handle inp w ww) as [t0 w0]. cbn [gbind] in Ex. injection Ex as <- <-.
        unfold badl. cbn [fst]. rewrite junks_app. cbn [junks junk length Nat.eqb orb]. apply orb_true_r. }
      eapply J_bind; [eapply branches_ok; [exact Hc|exact A|exact E1|left; discriminate]| |].
      - intros [[ta bs] wa] (ls & m1 & m2 & T & F & P & G & A1). cbn [fst snd] in *. subst ta m1. apply J_ret.
        exists m2, []. cbn [fst snd]. split; [exact A1|]. rewrite (emit_around_at _ _ _ _ _ _ _ A1). apply cg_texts_one.
        destruct bs as [|b0 bs].
        + exfalso. inversion G; subst. cbn [gen_branches] in E1. destruct c0. cbv zeta in E1. apply gbind_inv in E1 as ([[? ?] ?] & _ & E1).
          apply gbind_inv in E1 as (? & _ & E1). apply gbind_inv in E1 as ([? ?] & _ & E1). apply gbind_inv in E1 as ([[? ?] ?] & _ & E1).
          apply gbind_inv in E1 as ([[[[[? ?] ?] ?] ?] ?] & _ & E1). discriminate E1.
        + eapply cg_if; [exact F|exact G|discriminate].
      - intros [[ta bs] wa] y Bd [= <-]. unfold badb, badl in *. cbn [fst snd] in *. rewrite junks_app. cbn [junks]. rewrite junk_if, Bd, ?orb_true_r. reflexivity.
    Qed.
    Lemma let_ok w t e : node_ok (NLet w t e).
    Proof.
      intros lv st code z st' m ww sup b A E. cbn [handle_node elab_node] in *. unfold write_let in E. cbv zeta in E.
      destruct (at_handle w _ _ _ _ _ A) as (ls & w' & -> & A1). apply J_ret. unfold goodl. cbn [fst snd].
      destruct e as [e|].
      - apply gbind_inv in E as (r & E1 & E). apply gbind_inv in E as (sh & E2 & E). apply of_res_inv in E1, E2. rewrite (at_m _ _ _ _ _ A1) in E1, E2.
        apply gbind_inv in E as ([[c1 z1] s1] & E3 & E). cbv beta iota zeta in E.
        assert (S : exists b1, (if sh then flushed inp m (b ++ map WLit ls) c1 /\ b1 = [] else c1 = [] /\ b1 = b ++ map WLit ls) /\ At s1 m w' sup b1).
        { destruct sh; [destruct (at_write _ _ _ _ _ _ _ _ A1 E3); eauto|]. injection E3 as <- _ <-. eauto. }
        destruct S as (b1 & S & A2). apply gbind_inv in E as (u & _ & E). apply gbind_inv in E as ([p m'] & E4 & E). apply of_res_inv in E4.
        rewrite (at_m _ _ _ _ _ A2) in E4. injection E as <- _ <-. exists m', b1. split; [eapply at_locals, A2|].
        rewrite (emit_at _ _ _ _ _ _ A2). apply cg_texts_one. rewrite (at_m _ _ _ _ _ A2). eapply cg_let; eassumption.
      - apply gbind_inv in E as ([[c1 z1] s1] & E1 & E). destruct (at_write _ _ _ _ _ _ _ _ A1 E1) as [F1 A2].
        apply gbind_inv in E as (u & _ & E). apply gbind_inv in E as ([p m'] & E4 & E). apply of_res_inv in E4.
        rewrite (at_m _ _ _ _ _ A2) in E4. injection E as <- _ <-. exists m', []. split; [eapply at_locals, A2|].
        rewrite (emit_at _ _ _ _ _ _ A2). apply cg_texts_one. eapply cg_declare; eassumption.
    Qed.

    Lemma loop_ok w1 t it c body w2 els w3 : Forall node_ok body -> Forall node_ok els -> node_ok (NLoop w1 t it c body w2 els w3).
    Proof.
      intros Hb He lv st code z st' m w sup b A E. cbn [handle_node elab_node] in *. unfold write_loop in E. cbv zeta in E.
      destruct (at_handle w1 _ _ _ _ _ A) as (ls & w' & -> & A1). apply at_pushl in A1.
      apply gbind_inv in E as (r & E1 & E). apply of_res_inv in E1. rewrite (at_m _ _ _ _ _ A1) in E1.
      apply gbind_inv in E as ([[c0 z0] s0] & E2 & E). destruct (at_write _ _ _ _ _ _ _ _ A1 E2) as [F0 A2].
      apply gbind_inv in E as (u1 & _ & E). apply gbind_inv in E as (u2 & _ & E). apply at_open in A2.
      apply gbind_inv in E as ([flt s1] & E3 & E). cbv beta iota zeta in E.
      assert (C : exists m1, match c with
          | None => flt = None /\ m1 = ch_push m
          | Some e => exists p0 mc e', visit_target (ch_push (ch_push m)) true t = Ok (p0, mc) /\ visit_expr_root inp mc e = Ok e' /\
                                   ch_pop mc = Ok m1 /\ flt = Some (p0, e')
          end /\ At s1 m1 w' sup []).
      { destruct c as [e|].
        - pose proof (at_pushl _ _ _ _ _ A2) as A2'. apply gbind_inv in E3 as ([p0 mc] & E4 & E3). apply of_res_inv in E4. rewrite (at_m _ _ _ _ _ A2') in E4.
          apply gbind_inv in E3 as (e' & E5 & E3). apply of_res_inv in E5. apply gbind_inv in E3 as (s2 & E6 & E3). injection E3 as <- <-.
          eapply at_popl in E6; [|eapply at_locals, A2']. destruct E6 as (m1 & P & A3). exists m1. split; [exists p0, mc, e'; auto|exact A3].
        - injection E3 as <- <-. eexists. split; [split; reflexivity|exact A2]. }
      destruct C as (m1 & C & A3). apply at_pushl in A3.
      apply gbind_inv in E as (u3 & _ & E). apply gbind_inv in E as ([p m2] & E4 & E). apply of_res_inv in E4. rewrite (at_m _ _ _ _ _ A3) in E4.
      apply gbind_inv in E as (u4 & _ & E). apply gbind_inv in E as ([[c1 z1] s2] & E5 & E).
      apply gbind_inv in E as ([[c1' z1'] s3] & E6 & E). apply gbind_inv in E as (s4 & E7 & E). apply gbind_inv in E as (s5 & E8 & E).
      apply gbind_inv in E as ([[[celse ctail] z2] s6] & E9 & E). apply gbind_inv in E as (s7 & E10 & E). apply gbind_inv in E as (s8 & E11 & E).
      injection E as <- _ <-.
      eapply J_bind; [eapply list_ok; [exact Hb|apply at_open; eapply at_locals; exact A3|exact E5]| |].
      2:{ intros [tb wb] y Bd Ey. cbv beta iota in Ey. destruct (w_handle inp w2 wb) as [t2 wb2]. apply gbind_inv in Ey as ([te we] & _ & Ey).
          destruct (w_handle inp w3 we) as [t3 wb3]. destruct els; injection Ey as <-; jk Bd. }
      intros [tb wb] (m3 & b3 & A5 & G1). cbn [fst snd] in *.
      destruct (at_handle w2 _ _ _ _ _ A5) as (ls2 & wb2 & -> & A6). destruct (at_write _ _ _ _ _ _ _ _ A6 E6) as [F1 A7].
      destruct (at_popl _ _ _ _ _ _ A7 E7) as (m4 & P1 & A8). pose proof (at_close _ _ _ _ _ _ A8 E8) as A9.
      destruct els as [|n0 els].
      - cbn [elab_list gbind]. cbv zeta in E9. destruct (at_handle w3 _ _ _ _ _ A9) as (ls3 & wb3 & -> & A10). cbn [app] in A10.
        apply gbind_inv in E9 as ([[ct zt] st9] & E12 & E9). destruct (at_write _ _ _ _ _ _ _ _ A10 E12) as [F3 A11]. injection E9 as <- <- _ <-.
        pose proof (at_close _ _ _ _ _ _ A11 E10) as A12. destruct (at_popl _ _ _ _ _ _ A12 E11) as (m8 & P3 & A13).
        apply J_ret. exists m8, []. cbn [fst snd]. split; [exact A13|]. rewrite (emit_around_at _ _ _ _ _ _ _ A13). apply cg_texts_one.
        match goal with |- context [SLoop ?h ?r ?k ?fl ?p ?x ?y ?z] => change (SLoop h r k fl p x y z) with (SLoop h r k fl p x ([] ++ []) ([] ++ z)) end.
        eapply cg_for; [exact E1|exact F0|exact C|exact E4|apply cg_texts_end; exact G1|exact F1|exact P1|apply cg_nil|apply flushed_nil|eapply pop_push; exact P3
          |apply (cg_only_texts inp ls3 m4 [])|exact F3|exact P3|split; reflexivity].
      - apply gbind_inv in E9 as (u5 & _ & E9). apply gbind_inv in E9 as ([[c2 z2'] s9] & E12 & E9). cbv zeta in E9.
        apply gbind_inv in E9 as ([[c2' z2''] s10] & E13 & E9). apply gbind_inv in E9 as (s11 & E14 & E9). apply gbind_inv in E9 as (s12 & E15 & E9).
        injection E9 as <- <- _ <-.
        eapply J_bind; [eapply list_ok; [exact He|apply at_pushl; apply at_open; exact A9|exact E12]| |].
        2:{ intros [te we] y Bd Ey. cbv beta iota in Ey. destruct (w_handle inp w3 we) as [t3 wb3]. injection Ey as <-. jk Bd. }
        intros [te we] (m5 & b5 & A10 & G2). cbn [fst snd] in *. destruct (at_handle w3 _ _ _ _ _ A10) as (ls3 & wb3 & -> & A11).
        destruct (at_write _ _ _ _ _ _ _ _ A11 E13) as [F2 A12]. destruct (at_popl _ _ _ _ _ _ A12 E14) as (m6 & P2 & A13).
        pose proof (at_close _ _ _ _ _ _ A13 E15) as A14. pose proof (at_close _ _ _ _ _ _ A14 E10) as A15.
        destruct (at_popl _ _ _ _ _ _ A15 E11) as (m8 & P3 & A16).
        apply J_ret. exists m8, []. cbn [fst snd]. split; [exact A16|]. rewrite (emit_around_at _ _ _ _ _ _ _ A16). apply cg_texts_one.
        match goal with |- context [SLoop ?h ?r ?k ?fl ?p ?x ?y ?z] => change (SLoop h r k fl p x y z) with (SLoop h r k fl p x y ([] ++ [])) end.
        eapply cg_for; [exact E1|exact F0|exact C|exact E4|apply cg_texts_end; exact G1|exact F1|exact P1|apply cg_texts_end; exact G2|exact F2|exact P2
          |apply cg_nil|apply flushed_nil|exact P3|discriminate].
    Qed.
    Notation wb := (write_block inp (handle inp contexts find f) her ctx).
    Notation eb sup := (elab_block inp (elab inp contexts find f) her ctx sup).
    Lemma block_ok name outer st code z st' m w sup b : At st m w sup b -> wb name outer st = GOk (code, z, st') ->
      J (eb sup name outer w) badl (goodl m b sup code st').
    Proof.
      intros A E. unfold write_block in E. unfold elab_block. cbv zeta in E.
      destruct (at_flush (ws_l outer) _ _ _ _ _ A) as (ls & w' & -> & A1).
      apply gbind_inv in E as (cur & E1 & E). rewrite (at_s _ _ _ _ _ A1) in E1.
      assert (Ec : (match name, sup with
                  | Some x, _ => GOk (x, O)
                  | None, Some (x, g) => GOk (x, S g)
                  | None, None => GErr (lit "super() outside of a block")
                  end) = GOk cur).
      { destruct name, sup as [[prev g]|]; try exact E1; try discriminate E1. destruct (str_eqb s prev); [discriminate E1|exact E1]. }
      rewrite Ec. cbn [gbind]. apply gbind_inv in E as ([[c0 z0] s0] & E2 & E). destruct (at_write _ _ _ _ _ _ _ _ A1 E2) as [F0 A2].
      destruct her as [h|] eqn:Eher; [|discriminate E]. destruct (get (fst cur) (h_blocks h)) as [defs|]; [|discriminate E].
      destruct (nth_error defs (snd cur)) as [[cc def]|]; [|discriminate E].
      rewrite (at_d _ _ _ _ _ A2), andb_false_r in E.
      apply gbind_inv in E as ([[c1 z1] s1] & E3 & E). apply gbind_inv in E as ([[c2 z2] s2] & E4 & E). injection E as <- _ <-.
      eapply J_bind; [eapply (HE _ _ _ LBlock) in E3; [exact E3|constructor; reflexivity]| |].
      2:{ intros [tb wbb] y Bd Ey. cbv beta iota in Ey. destruct (w_flush inp (ws_l (b_ws2 def)) wbb). injection Ey as <-. jk Bd. }
      intros [tb wbb] (m1 & b1 & A3 & G1). cbn [fst snd] in *.
      assert (S : exists b2, (if ch_is_current_empty m1 then c2 = [] /\ b2 = b1 else flushed inp m1 b1 c2 /\ b2 = []) /\ At s2 m1 wbb (Some cur) b2).
      { rewrite (at_m _ _ _ _ _ A3) in E4. destruct (ch_is_current_empty m1); [injection E4 as <- _ <-; eauto|].
        destruct (at_write _ _ _ _ _ _ _ _ A3 E4); eauto. }
      destruct S as (b2 & S & A4). destruct (at_flush (ws_l (b_ws2 def)) _ _ _ _ _ A4) as (ls2 & w2 & -> & A5).
      apply J_ret. unfold goodl. cbn [fst snd]. exists m, (b2 ++ map WLit ls2). split.
      - apply at_prepare. destruct A2, A5. constructor; cbn; congruence.
      - apply cg_texts_one. eapply cg_block; [exact F0|rewrite (at_b _ _ _ _ _ A2) in G1; exact G1|exact S].
    Qed.
    Lemma include_ok w path : node_ok (NInclude w path).
    Proof.
      intros lv st code z st' m ww sup b A E. cbn [handle_node elab_node] in *. unfold write_include in E. unfold elab_include. cbv zeta in E.
      destruct (at_flush (ws_l w) _ _ _ _ _ A) as (ls & w' & -> & A1).
      apply gbind_inv in E as ([[c0 z0] s0] & E2 & E). destruct (at_write _ _ _ _ _ _ _ _ A1 E2) as [F0 A2].
      apply gbind_inv in E as (p & E3 & E). rewrite E3. cbn [gbind]. apply gbind_inv in E as (u & _ & E).
      destruct (get p contexts) as [cc|]; [|discriminate E]. cbv zeta. apply gbind_inv in E as (h & E4 & E). rewrite E4. cbn [gbind].
      apply gbind_inv in E as ([[c1 z1] s1] & E5 & E). apply gbind_inv in E as ([[c2 z2] s2] & E6 & E). injection E as <- _ <-.
      eapply J_bind; [eapply (HE _ _ _ LTop) in E5; [exact E5|constructor; cbn; try reflexivity; [apply (at_d _ _ _ _ _ A2)|apply (at_o _ _ _ _ _ A2)]]| |].
      2:{ intros [tb wbb] y Bd Ey. injection Ey as <-. jk Bd. }
      intros [tb wbb] (c3 & c4 & m1 & b1 & Ec & G1 & F1 & A3). cbn [fst snd] in *. rewrite (at_m _ _ _ _ _ A2) in G1. subst c1.
      apply at_write with (m := m1) (w := wbb) (sup := None) (b := []) in E6 as [F2 A4]; [|exact A3].
      apply flushed_nil_inv in F2. subst c2. apply J_ret. exists m, []. cbn [fst snd].
      assert (A5 : At (set_indent (o_indent s2) s0) m w' sup []) by (apply at_indent; exact A2).
      split; [apply at_prepare; exact A5|]. rewrite (emit_at _ _ _ _ _ _ A5). rewrite app_nil_r. apply cg_texts_one. eapply cg_include; eassumption.
    Qed.
    Lemma call_ok w scope name args : node_ok (NCall w scope name args).
    Proof.
      intros lv st code z st' m ww sup b A E. cbn [handle_node elab_node] in *. unfold write_call in E. unfold elab_call.
      destruct (str_eqb name (lit "super")); [eapply block_ok; eassumption|].
      apply gbind_inv in E as ([def own] & E1 & E).
      assert (Ed : (match scope with
          | Some s => match get s (c_imports ctx) with
                      | None => GErr (lit "no such import")
                      | Some path => match get path contexts with
                                     | None => GErr (lit "no such import")
                                     | Some c => match get name (c_macros c) with None => GErr (lit "no such macro") | Some d => GOk (d, c) end
                                     end
                      end
          | None => match get name (c_macros ctx) with None => GErr (lit "no such macro") | Some d => GOk (d, ctx) end
          end) = GOk (def, own)).
      { destruct scope as [s|].
        - destruct (get s (c_imports ctx)) as [path|]; [|discriminate E1]. destruct (get path contexts) as [mc|]; [|discriminate E1].
          destruct (get name (c_macros mc)); [exact E1|discriminate E1].
        - destruct (get name (c_macros ctx)); [exact E1|discriminate E1]. }
      rewrite Ed. cbn [gbind]. cbv zeta in E. destruct (at_flush (ws_l w) _ _ _ _ _ A) as (ls & w' & -> & A1). apply at_pushl in A1.
      apply gbind_inv in E as ([[c0 z0] s0] & E2 & E). destruct (at_write _ _ _ _ _ _ _ _ A1 E2) as [F0 A2].
      apply gbind_inv in E as (u & _ & E). apply at_open in A2. apply (at_prepare (ws_r (k_ws1 def))) in A2.
      destruct (Nat.eqb (length args) (length (k_args def))); [|discriminate E]. cbn [negb] in E.
      apply gbind_inv in E as (named & E3 & E). apply gbind_inv in E as ([[m1 names] values] & E4 & E). apply of_res_inv in E3, E4.
      rewrite (at_m _ _ _ _ _ A2) in E4.
      assert (Hn : forall p, get p named = named_arg p args).
      { intros p. rewrite (named_arguments_ok (k_args def) p (rev args) [] [] named); [|reflexivity..|exact E3]. rewrite rev_involutive, app_nil_r. reflexivity. }
      destruct (bind_args_pairs inp named args _ Hn _ _ _ _ E4) as (l & L1 & L2).
      apply gbind_inv in E as (u2 & _ & E). apply gbind_inv in E as ([[c1 z1] s1] & E5 & E).
      apply gbind_inv in E as ([[c2 z2] s2] & E6 & E). apply gbind_inv in E as (s3 & E7 & E). apply gbind_inv in E as (s4 & E8 & E). injection E as <- _ <-.
      eapply J_bind; [eapply (HE _ _ _ LNested) in E5; [exact E5|eapply at_locals; exact A2]| |].
      2:{ intros [tb wbb] y Bd Ey. cbv beta iota in Ey. destruct (w_flush inp (ws_l (k_ws2 def)) wbb). rewrite L1 in Ey. injection Ey as <-. jk Bd. }
      intros [tb wbb] (m2 & b2 & A3 & G1). cbn [fst snd] in *. destruct (at_flush (ws_l (k_ws2 def)) _ _ _ _ _ A3) as (ls2 & w2 & -> & A4). rewrite L1.
      destruct (at_write _ _ _ _ _ _ _ _ A4 E6) as [F1 A5]. pose proof (at_close _ _ _ _ _ _ A5 E7) as A6. destruct (at_popl _ _ _ _ _ _ A6 E8) as (m3 & P & A7).
      apply (at_prepare (ws_r w)) in A7. apply J_ret. exists m3, []. cbn [fst snd]. split; [exact A7|].
      rewrite (emit_around_at _ _ _ _ _ _ _ A7). apply cg_texts_one.
      replace (match names with [] => [] | _ :: _ => emit (do_prepare_ws inp (ws_r w) s4) [SLetTuple names values] end) with (bind_code names values)
        by (rewrite (emit_at _ _ _ _ _ _ A7); reflexivity).
      eapply cg_macro; [exact F0|exact L2|apply cg_texts_end; exact G1|exact F1|exact P].
    Qed.
    Lemma filter_ok w1 x args l w2 : Forall node_ok l -> node_ok (NFilterBlock w1 x args l w2).
    Proof.
      intros Hl lv st code z st' m w sup b A E. cbn [handle_node elab_node] in *. unfold write_filter_block in E. cbv zeta in E.
      destruct (at_flush (ws_l w1) _ _ _ _ _ A) as (ls & w' & Ew & A1).
      unfold w_handle at 1. rewrite Ew. apply gbind_inv in E as (var & E1 & E). rewrite (at_m _ _ _ _ _ A1) in E1.
      apply gbind_inv in E as ([[c1 z1] s1] & E2 & E). apply gbind_inv in E as ([[wz parts] nm] & E3 & E). apply of_res_inv in E3.
      eapply J_bind; [eapply list_ok; [exact Hl|apply at_prepare; eapply at_buf; exact A1|exact E2]| |].
      2:{ intros [tb wbb] y Bd Ey. cbv beta iota in Ey. destruct (w_handle inp w2 wbb). injection Ey as <-. jk Bd. }
      intros [tb wbb] (m1 & b1 & A3 & G1). cbn [fst snd] in *. unfold w_handle. destruct (at_flush (ws_l w2) _ _ _ _ _ A3) as (ls2 & ww2 & -> & A4).
      rewrite (at_m _ _ _ _ _ A4), (at_b _ _ _ _ _ A4) in E3. apply (cg_texts_end _ _ _ _ _ _ ls2) in G1.
      assert (Hp : parts = NoParts \/ parts <> NoParts) by (destruct parts; [left; reflexivity|right; discriminate..]).
      destruct Hp as [-> |Hp].
      { apply J_bad. intros y [= <-]. unfold badl. cbn [fst]. rewrite junks_app. cbn [junks]. rewrite junk_filter.
        assert (Hb : b1 ++ map WLit ls2 = []).
        { unfold prepare_format in E3. destruct (b1 ++ map WLit ls2) as [|y l0] eqn:Eb; [reflexivity|].
          destruct (all_lits _); [discriminate E3|]. apply rbind_Ok in E3 as (? & _ & E3). discriminate E3. }
        rewrite Hb in G1. destruct (tb ++ texts ls2) as [|n0 ts0] eqn:Et; [cbn; apply orb_true_r|]. cbn [length Nat.eqb orb].
        destruct (forallb only_output (n0 :: ts0)) eqn:Eo; [|cbn [negb orb]; apply orb_true_r].
        exfalso. refine (cg_output _ _ _ _ _ _ G1 Eo _ eq_refl). right. discriminate. }
      assert (E' : exists s r wrapped m2, match parts with NoParts => False | LitParts t => s = SLetStr var t | FmtParts f a => s = SLetFmt var f a end /\
         visit_expr inp m1 (insert_in_filter var (Filter x args)) = Ok (r, wrapped) /\ ch_insert m1 var m_initialized = Ok m2 /\
         code = c1 ++ [s] /\ At st' m2 (w_prepare inp (ws_r w2) ww2) sup ((b ++ map WLit ls) ++ [WGen r wrapped])).
      { assert (A5 : At (set_buf (s_buf (do_flush_ws inp (ws_l w1) st)) (set_named nm (set_buf [] (do_flush_ws inp (ws_l w2) s1)))) m1 ww2 sup (b ++ map WLit ls)).
        { rewrite (at_b _ _ _ _ _ A1). eapply at_buf, at_named, at_buf, A4. }
        rewrite (at_m _ _ _ _ _ A5) in E.
        destruct parts as [|t|ff a]; [destruct Hp; reflexivity| |];
          apply gbind_inv in E as (u1 & _ & E); apply gbind_inv in E as (u2 & _ & E); apply gbind_inv in E as ([r wr] & E4 & E); apply of_res_inv in E4;
          pose proof (at_prepare (ws_r w2) _ _ _ _ _ (at_push _ _ _ _ _ [WGen r wr] A5)) as A6;
          apply gbind_inv in E as (m2 & E5 & E); apply of_res_inv in E5; rewrite (at_m _ _ _ _ _ A6) in E5; injection E as <- _ <-;
          rewrite (emit_at _ _ _ _ _ _ A6); eexists _, r, wr, m2; (split; [reflexivity|]); (split; [exact E4|]); (split; [exact E5|]); (split; [reflexivity|]); eapply at_locals; exact A6. }
      destruct E' as (s & r & wr & m2 & Es & E4 & E5 & -> & A5).
      apply J_ret. unfold goodl. cbn [fst snd]. exists m2, ((b ++ map WLit ls) ++ [WGen r wr]). split; [exact A5|].
      apply cg_texts_one. eapply cg_filter; try eassumption.
    Qed.
    Lemma all_ok n : node_ok n.
    Proof.
      induction n using node_ind'.
      - intros lv st code z st' m w sup b A E. cbn [handle_node elab_node] in *. apply gbind_inv in E as (s & E1 & E). injection E as <- _ <-.
        destruct (at_lit _ _ _ _ _ _ _ A E1) as (ls & w' & -> & A1). apply J_ret. eexists _, _. cbn [fst snd]. split; [exact A1|apply cg_only_texts].
      - intros lv st code z st' m ww sup b A E. cbn [handle_node elab_node] in *. injection E as <- _ <-.
        destruct (at_handle w _ _ _ _ _ A) as (ls & w' & -> & A1). apply J_ret. eexists _, _. cbn [fst snd]. split; [exact A1|apply cg_only_texts].
      - intros lv st code z st' m ww sup b A E. cbn [handle_node elab_node] in *. injection E as <- _ <-.
        destruct (at_handle w _ _ _ _ _ A) as (ls & w' & -> & A1). apply J_ret. eexists _, _. cbn [fst snd]. split; [apply at_push, A1|].
        apply cg_texts_one. apply cg_expr.
      - apply call_ok.
      - apply let_ok.
      - apply if_ok; assumption.
      - apply match_ok; assumption.
      - apply loop_ok; assumption.
      - intros lv st code z st' m ww sup b A E. cbn [handle_node elab_node] in *. destruct (top_level lv); [|discriminate E]. injection E as <- _ <-.
        apply J_ret. eexists _, _. cbn [fst snd]. split; [exact A|apply cg_nil].
      - intros lv st code z st' m ww sup b A E. cbn [handle_node elab_node] in *. eapply block_ok; eassumption.
      - apply include_ok.
      - intros lv st code z st' m ww sup b A E. cbn [handle_node elab_node] in *. destruct (top_level lv); [|discriminate E]. injection E as <- _ <-.
        destruct (at_handle w _ _ _ _ _ A) as (ls & w' & -> & A1). apply J_ret. eexists _, _. cbn [fst snd]. split; [exact A1|apply cg_only_texts].
      - intros lv st code z st' m ww sup b A E. cbn [handle_node elab_node] in *. destruct (top_level lv); [|discriminate E]. injection E as <- _ <-.
        destruct (at_flush (ws_l w1) _ _ _ _ _ A) as (ls & w' & -> & A1). apply J_ret. eexists _, _. cbn [fst snd]. split; [apply at_prepare, A1|apply cg_only_texts].
      - intros lv st code z st' m ww sup b A E. cbn [handle_node elab_node] in *. destruct (at_handle w1 _ _ _ _ _ A) as (ls & w' & -> & A1).
        apply gbind_inv in E as (s & E1 & E). destruct (at_lit _ _ _ _ _ _ _ A1 E1) as (ls2 & w'' & -> & A2). cbn [gbind].
        destruct (at_handle w2 _ _ _ _ _ A2) as (ls3 & w3 & -> & A3). injection E as <- _ <-. apply J_ret. eexists _, _. cbn [fst snd]. split; [exact A3|].
        apply cg_texts, cg_texts, cg_only_texts.
      - intros lv st code z st' m ww sup b A E. cbn [handle_node elab_node] in *. destruct (at_handle w _ _ _ _ _ A) as (ls & w' & -> & A1).
        apply gbind_inv in E as ([[c1 z1] s1] & E1 & E). destruct (at_write _ _ _ _ _ _ _ _ A1 E1) as [F1 A2]. apply gbind_inv in E as (u & _ & E). injection E as <- _ <-.
        apply J_ret. exists m, []. cbn [fst snd]. split; [exact A2|]. rewrite (emit_at _ _ _ _ _ _ A2). apply cg_texts_one, cg_break, F1.
      - intros lv st code z st' m ww sup b A E. cbn [handle_node elab_node] in *. destruct (at_handle w _ _ _ _ _ A) as (ls & w' & -> & A1).
        apply gbind_inv in E as ([[c1 z1] s1] & E1 & E). destruct (at_write _ _ _ _ _ _ _ _ A1 E1) as [F1 A2]. apply gbind_inv in E as (u & _ & E). injection E as <- _ <-.
        apply J_ret. exists m, []. cbn [fst snd]. split; [exact A2|]. rewrite (emit_at _ _ _ _ _ _ A2). apply cg_texts_one, cg_continue, F1.
      - apply filter_ok; assumption.
    Qed.
  End Nodes.

  Lemma expand_all f : expand_ok f.
  Proof.
    induction f as [|f IH]; intros her ctx nodes lv st code z st' m w sup b A E; [discriminate E|].
    cbn [handle elab] in *. unfold handle_nodes in E. unfold elab_nodes. apply gbind_inv in E as ([[c1 z1] s1] & E1 & E).
    assert (L : J (elab_list (elab_node inp contexts find (elab inp contexts find f) her ctx sup) nodes w) badl (goodl m b sup c1 s1)).
    { eapply list_ok; [|exact A|exact E1]. apply Forall_forall. intros n _. apply all_ok. exact IH. }
    cbv beta iota zeta in E. destruct (top_level lv).
    - apply gbind_inv in E as ([[c2 z2] s2] & E2 & E). injection E as <- _ <-. eapply J_bind; [exact L| |].
      + intros [t wt] (m1 & b1 & A1 & G1). cbn [fst snd] in *. rewrite (at_w _ _ _ _ _ A1) in E2.
        destruct (next_ws wt) as [v|] eqn:Ev.
        * destruct (at_flush (Some (skip wt)) _ _ _ _ _ A1) as (ls & w' & -> & A2). destruct (at_write _ _ _ _ _ _ _ _ A2 E2) as [F A3].
          apply J_ret. exists c1, c2, m1, (b1 ++ map WLit ls). cbn [fst snd]. split; [reflexivity|]. split; [apply cg_texts_end, G1|]. split; [exact F|exact A3].
        * destruct (at_write _ _ _ _ _ _ _ _ A1 E2) as [F A3]. apply J_ret. exists c1, c2, m1, b1. cbn [fst snd]. rewrite app_nil_r. auto.
      + intros [t wt] y Bd Ey. cbv beta iota in Ey. destruct (match next_ws wt with Some _ => _ | None => _ end). injection Ey as <-. unfold badl in *. cbn [fst] in *.
        rewrite junks_app, Bd. reflexivity.
    - injection E as <- _ <-. eapply J_bind; [exact L| |].
      + intros [t wt] G. apply J_ret. exact G.
      + intros [t wt] y Bd [= <-]. exact Bd.
  Qed.
End Elab.
