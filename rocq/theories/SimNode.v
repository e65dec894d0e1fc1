(** * The cases of the simulation. *)
From Coq Require Import ZArith ZifyBool ZifyNat ZifyN.
From Verif Require Import Base Ws Ast Ident IdentFacts GenExpr Heritage Gen Sem RefSem RexprFacts FlushFacts Scoped SimExpr SimFacts GenSteps SimRel SimBuf.
Local Open Scope N_scope.

Section Sim.
  Variables (w : world) (inp : ginput).
  Hypothesis wok : world_ok w.
  Notation lookup := (lookup w).
  Notation Rel := (Rel w).
  Notation PInv := (PInv w inp).
  Notation mono := (mono w).
  Notation xlist := (exec_list w (exec w)).
  Notation mlist lp := (mean_list w (mean w inp lp)).

  (** Only these names may have changed. *)
  Definition ext (tps : list str) (re re' : env w) : Prop :=
    forall n, is_fb n = false -> (forall y, In y tps -> good y = true -> n <> norm y) -> lookup re' n = lookup re n.
  Definition ext_fb (m : chain) (re re' : env w) : Prop := forall n, ch_get m n <> None -> is_fb n = true -> lookup re' n = lookup re n.
  Definition keeps (m m' : chain) : Prop := forall n, ch_get m n <> None -> ch_get m' n <> None.

  (** [code] does what [mf] says, when [b] is pending before it and [b'] after it. *)
  Definition Sim A1 A2 F lp G G' m m' b b' (mf : env w -> store w -> out (mres w)) (code : list stmt) (tps : list str) (oo : bool) : Prop :=
    forall te re st p, Rel A1 A2 F G m te re st lp -> PInv A1 F m re st b p ->
    match mf te st with
    | Unset => True
    | Fails => xlist code re st = Fails
    | Done (o, te', st', fl) =>
        (xlist code re st = Fails /\ tapp p o = None) \/
        exists s re', xlist code re st = Done (s, re', st', fl) /\ mono st st' /\ ext tps re re' /\
          (oo = true -> s = [] /\ ext_fb m re re') /\
          match fl with
          | Next => exists p', tapp p o = tapp (Some s) p' /\ Rel A1 A2 F G' m' te' re' st' lp /\ PInv A1 F m' re' st' b' p'
          | _ => tapp p o = Some s
          end
    end.
  (** The same for code with nothing pending before and after *)
  Definition Body A1 A2 F lp G G' m m' (mf : env w -> store w -> out (mres w)) (code : list stmt) (tps : list str) : Prop :=
    forall te re st, Rel A1 A2 F G m te re st lp ->
    match mf te st with
    | Unset => True
    | Fails => xlist code re st = Fails
    | Done (o, te', st', fl) =>
        match o with
        | None => xlist code re st = Fails
        | Some s => exists re', xlist code re st = Done (s, re', st', fl) /\ mono st st' /\ ext tps re re' /\
                      (fl = Next -> Rel A1 A2 F G' m' te' re' st' lp)
        end
    end.

  Lemma exec_app a b re st : xlist (a ++ b) re st =
    let^ (o, re, st, fl) := xlist a re st in
    match fl with Next => let^ (o', re, st, fl) := xlist b re st in Done (o ++ o', re, st, fl) | _ => Done (o, re, st, fl) end.
  Proof.
    revert re st. induction a as [|s a IH]; intros re st; cbn [app Sem.exec_list obnd].
    - destruct (xlist b re st) as [[[[o re'] st'] fl]| |]; reflexivity.
    - destruct (exec w s re st) as [[[[o re'] st'] fl]| |]; cbn [obnd]; try reflexivity. destruct fl; cbn [obnd]; try reflexivity.
      rewrite IH. destruct (xlist a re' st') as [[[[o1 re1] st1] fl1]| |]; cbn [obnd]; try reflexivity. destruct fl1; cbn [obnd]; try reflexivity.
      destruct (xlist b re1 st1) as [[[[o2 re2] st2] fl2]| |]; cbn [obnd]; try reflexivity. rewrite app_assoc. reflexivity.
  Qed.
  Lemma exec_one s re st : xlist [s] re st = exec w s re st.
  Proof. cbn [Sem.exec_list]. destruct (exec w s re st) as [[[[o re'] st'] fl]| |]; cbn [obnd]; try reflexivity. destruct fl; cbn [obnd]; rewrite ?app_nil_r; reflexivity. Qed.
  Lemma mean_app f a b te st : mean_list w f (a ++ b) te st =
    let^ (o, te, st, fl) := mean_list w f a te st in
    match fl with Next => let^ (o', te, st, fl) := mean_list w f b te st in Done (tapp o o', te, st, fl) | _ => Done (o, te, st, fl) end.
  Proof.
    revert te st. induction a as [|s a IH]; intros te st; cbn [app mean_list obnd].
    - destruct (mean_list w f b te st) as [[[[o te'] st'] fl]| |]; cbn [obnd]; try reflexivity. rewrite tapp_nil_l. reflexivity.
    - destruct (f s te st) as [[[[o te'] st'] fl]| |]; cbn [obnd]; try reflexivity. destruct fl; cbn [obnd]; try reflexivity.
      rewrite IH. destruct (mean_list w f a te' st') as [[[[o1 te1] st1] fl1]| |]; cbn [obnd]; try reflexivity. destruct fl1; cbn [obnd]; try reflexivity.
      destruct (mean_list w f b te1 st1) as [[[[o2 te2] st2] fl2]| |]; cbn [obnd]; try reflexivity. rewrite tapp_assoc. reflexivity.
  Qed.

  Lemma ext_refl tps re : ext tps re re.
  Proof. intros n _ _. reflexivity. Qed.
  Lemma ext_trans t1 t2 a b c : ext t1 a b -> ext t2 b c -> ext (t1 ++ t2) a c.
  Proof. intros H1 H2 n Hn Ht. rewrite H2, H1; auto; intros; apply Ht; auto; apply in_or_app; auto. Qed.
  Lemma ext_incl t1 t2 a b : incl t1 t2 -> ext t1 a b -> ext t2 a b.
  Proof. intros I H n Hn Ht. apply H; auto. Qed.
  Lemma keeps_refl m : keeps m m.
  Proof. intros n H. exact H. Qed.
  Lemma keeps_trans a b c : keeps a b -> keeps b c -> keeps a c.
  Proof. intros H1 H2 n H. auto. Qed.
  Lemma keeps_target m b t p m' : visit_target m b t = Ok (p, m') -> keeps m m'.
  Proof. intros H n Hn. apply target_get in H as [_ H]. rewrite H. destruct (mem_str _ _); [discriminate|exact Hn]. Qed.
  Lemma keeps_insert m k v m' : ch_insert m k v = Ok m' -> keeps m m'.
  Proof. intros H n Hn. rewrite (ch_get_insert _ _ _ _ _ H). destruct (str_eqb n k); [discriminate|exact Hn]. Qed.

  Lemma Sim_nil A1 A2 F lp G m b : Sim A1 A2 F lp G G m m b b (mlist lp []) [] [] true.
  Proof.
    intros te re st p R P. cbn [mean mean_list]. right. exists [], re. split; [reflexivity|]. split; [apply mono_refl|]. split; [apply ext_refl|].
    split; [intros _; split; [reflexivity|intros n _ _; reflexivity]|]. exists p. split; [|auto]. rewrite tapp_nil_r, tapp_nil_l. reflexivity.
  Qed.
  Lemma Sim_cons A1 A2 F lp G G1 G2 m m1 m2 b b1 b2 t ts c c' tp tps o1 o2 : keeps m m1 ->
    Sim A1 A2 F lp G G1 m m1 b b1 (mean w inp lp t) c tp o1 -> Sim A1 A2 F lp G1 G2 m1 m2 b1 b2 (mlist lp ts) c' tps o2 ->
    Sim A1 A2 F lp G G2 m m2 b b2 (mlist lp (t :: ts)) (c ++ c') (tp ++ tps) (o1 && o2).
  Proof.
    intros K H1 H2 te re st p R P. specialize (H1 te re st p R P). rewrite exec_app. cbn [mean_list].
    destruct (mean w inp lp t te st) as [[[[o te1] st1] fl]| |]; cbn [obnd].
    - destruct H1 as [[H1 N]|(s & re1 & X & M & E & OO & D)].
      + rewrite H1. cbn [obnd]. destruct fl; cbn [obnd]; [|left; auto|left; auto].
        destruct (mean_list w (mean w inp lp) ts te1 st1) as [[[[o' te2] st2] fl2]| |]; cbn [obnd]; [|reflexivity|exact I].
        left. split; [reflexivity|]. rewrite <- tapp_assoc, N. reflexivity.
      + rewrite X. cbn [obnd]. destruct fl.
        * destruct D as (p1 & D1 & R1 & P1). specialize (H2 te1 re1 st1 p1 R1 P1).
          destruct (mean_list w (mean w inp lp) ts te1 st1) as [[[[o' te2] st2] fl2]| |]; cbn [obnd]; [|rewrite H2; reflexivity|exact I].
          assert (T : tapp p (tapp o o') = tapp (Some s) (tapp p1 o')) by (rewrite <- !tapp_assoc, D1; reflexivity).
          destruct H2 as [[H2 N]|(s2 & re2 & X2 & M2 & E2 & OO2 & D2)].
          -- left. rewrite H2. split; [reflexivity|]. rewrite T, N. reflexivity.
          -- right. exists (s ++ s2), re2. rewrite X2. split; [reflexivity|]. split; [eapply mono_trans; eassumption|]. split; [eapply ext_trans; eassumption|].
             split.
             { intros HO. apply andb_prop in HO as [HO1 HO2]. destruct (OO HO1) as [-> F1]. destruct (OO2 HO2) as [-> F2]. split; [reflexivity|].
               intros n Hn Hb. rewrite F2, F1 by auto. reflexivity. }
             destruct fl2.
             ++ destruct D2 as (p2 & D2 & R2 & P2). exists p2. split; [|auto]. rewrite T, D2, <- tapp_assoc. reflexivity.
             ++ rewrite T, D2. reflexivity.
             ++ rewrite T, D2. reflexivity.
        * right. exists s, re1. split; [reflexivity|]. split; [exact M|]. split; [eapply ext_incl; [apply incl_appl, incl_refl|exact E]|].
          split; [|exact D]. intros HO. apply andb_prop in HO as [HO1 _]. exact (OO HO1).
        * right. exists s, re1. split; [reflexivity|]. split; [exact M|]. split; [eapply ext_incl; [apply incl_appl, incl_refl|exact E]|].
          split; [|exact D]. intros HO. apply andb_prop in HO as [HO1 _]. exact (OO HO1).
    - rewrite H1. reflexivity.
    - exact I.
  Qed.
  (** Nothing pending before; what is pending after is written. *)
  Lemma Body_of A1 A2 F lp G G' m m1 b1 mf c c' tps oo : Sim A1 A2 F lp G G' m m1 [] b1 mf c tps oo -> flushed inp m1 b1 c' ->
    Body A1 A2 F lp G G' m m1 mf (c ++ c') tps.
  Proof.
    intros H Fl te re st R. specialize (H te re st (Some []) R (PInv_nil w inp A1 F m re st)). rewrite exec_app.
    destruct (mf te st) as [[[[o te'] st'] fl]| |]; [|rewrite H; reflexivity|exact I]. rewrite tapp_nil_l in H.
    destruct H as [[H ->]|(s & re' & X & M & E & _ & D)]; [rewrite H; reflexivity|]. rewrite X. cbn [obnd]. destruct fl.
    - destruct D as (p' & -> & R' & P'). rewrite (flush_exec w inp A1 F m1 re' st' b1 p' c' P' Fl). destruct p' as [s'|]; cbn [obnd tapp]; [|reflexivity].
      exists re'. auto.
    - subst o. exists re'. split; [reflexivity|]. split; [exact M|]. split; [exact E|discriminate].
    - subst o. exists re'. split; [reflexivity|]. split; [exact M|]. split; [exact E|discriminate].
  Qed.
  (** What is pending is written first. *)
  Lemma Sim_flush A1 A2 F lp G G' m m' b c mf c1 tps : flushed inp m b c -> Body A1 A2 F lp G G' m m' mf c1 tps ->
    Sim A1 A2 F lp G G' m m' b [] mf (c ++ c1) tps false.
  Proof.
    intros Fl H te re st p R P. specialize (H te re st R). rewrite exec_app, (flush_exec w inp A1 F m re st b p c P Fl).
    destruct (mf te st) as [[[[o te'] st'] fl]| |]; [|destruct p; cbn [obnd]; [rewrite H|]; reflexivity|exact I].
    destruct p as [s0|]; cbn [obnd]; [|left; auto].
    destruct o as [s|]; [|left; rewrite H; auto]. destruct H as (re' & X & M & E & R'). rewrite X. cbn [obnd]. right.
    exists (s0 ++ s), re'. split; [reflexivity|]. split; [exact M|]. split; [exact E|]. split; [discriminate|].
    destruct fl; [|reflexivity|reflexivity]. exists (Some []). split; [cbn; rewrite app_nil_r; reflexivity|]. split; [auto|apply PInv_nil].
  Qed.

  (** ** Text, expressions, jumps *)
  Lemma text_sim A1 A2 F lp G m b s : Sim A1 A2 F lp G G m m b (b ++ [WLit s]) (mean w inp lp (TText s)) [] [] true.
  Proof.
    intros te re st p R P. cbn [mean mean_list]. right. exists [], re. split; [reflexivity|]. split; [apply mono_refl|]. split; [apply ext_refl|].
    split; [intros _; split; [reflexivity|intros n _ _; reflexivity]|]. exists (tapp p (Some s)). split; [rewrite tapp_nil_l; reflexivity|]. split; [exact R|].
    apply PInv_add; [exact P|exact I|reflexivity].
  Qed.
  Lemma expr_sim A1 A2 F lp G m b e : scoped_expr F A2 G e = true -> Sim A1 A2 F lp G G m m b (b ++ [WExpr e]) (mean w inp lp (TExpr e)) [] [] true.
  Proof.
    intros HS te re st p R P. cbn [mean]. destruct (show_expr w inp te st lp Unset e) as [t| |] eqn:E; cbn [obnd]; [|unfold show_expr in E; destruct (teval w inp te st lp Unset e); discriminate E|exact I].
    right. exists [], re. split; [reflexivity|]. split; [apply mono_refl|]. split; [apply ext_refl|].
    split; [intros _; split; [reflexivity|intros n _ _; reflexivity]|]. exists (tapp p t). split; [rewrite tapp_nil_l; reflexivity|]. split; [exact R|].
    destruct (show_item w inp A1 A2 F G m te re st lp e t wok R HS E). apply PInv_add; assumption.
  Qed.
  Lemma jump_sim A1 A2 F lp G m b c t s fl : flushed inp m b c -> (forall te st, mean w inp lp t te st = Done (Some [], te, st, fl)) ->
    (forall re st, exec w s re st = Done ([], re, st, fl)) -> fl <> Next -> Sim A1 A2 F lp G G m m b [] (mean w inp lp t) (c ++ [s]) [] false.
  Proof.
    intros Fl Hm Hx Hf. apply Sim_flush; [exact Fl|]. intros te re st R. rewrite Hm, exec_one, Hx. exists re. split; [reflexivity|].
    split; [apply mono_refl|]. split; [apply ext_refl|]. intros E. contradiction.
  Qed.

  (** ** let *)
  Lemma mono_grow st l : mono st (st ++ l).
  Proof. intros k v H. rewrite nth_error_app1; [exact H|]. apply nth_error_Some. congruence. Qed.
  Lemma declare_norm xs : forall te re st, snd (declare w (map norm xs) re st) = snd (declare w xs te st).
  Proof. induction xs as [|x xs IH]; intros te re st; [reflexivity|]. cbn [map declare]. apply IH. Qed.
  Lemma declare_rel A1 A2 F lp xs : forall G m m' te re st, Rel A1 A2 F G m te re st lp ->
    (forall x, In x xs -> good x = true /\ ~ In x A1 /\ ~ In x A2) -> (forall x, In x xs -> ~ In x F) ->
    insert_all m m_default (map norm xs) = Ok m' ->
    exists te' re' st', declare w xs te st = (te', st') /\ declare w (map norm xs) re st = (re', st') /\ mono st st' /\ ext xs re re' /\
      Rel A1 A2 F (bind_vars true xs G) m' te' re' st' lp.
  Proof.
    induction xs as [|x xs IH]; intros G m m' te re st R Hb HF E; cbn [map declare insert_all] in *.
    - injection E as <-. exists te, re, st. split; [reflexivity|]. split; [reflexivity|]. split; [apply mono_refl|]. split; [apply ext_refl|exact R].
    - apply rbind_Ok in E as (m1 & E1 & E). destruct (Hb x (or_introl eq_refl)) as (Hg & N1 & N2).
      assert (R1 : Rel A1 A2 F ((x, true) :: G) m1 ((x, Loc w (length st)) :: te) ((norm x, Loc w (length st)) :: re) (st ++ [None]) lp).
      { eapply Rel_over with (xs := [x]); [exact R|apply incl_refl|exact (r_shared _ _ _ _ _ _ _ _ _ _ R)|apply incl_refl|..].
        - intros y [<-|[]]. exact Hg.
        - intros k Hk. rewrite (ch_get_insert _ _ _ _ _ E1), (proj2 (str_eqb_neq _ _)); [reflexivity|]. intros ->. apply Hk. left. reflexivity.
        - intros y Hy. cbn [get]. rewrite (proj2 (str_eqb_neq _ _)); [reflexivity|]. intros ->. apply Hy. left. reflexivity.
        - intros y Hy. unfold Sem.lookup. cbn [get]. rewrite (proj2 (str_eqb_neq _ _)); [reflexivity|]. intros ->. apply Hy. left. reflexivity.
        - intros y meta Hgy Hy _ _. unfold Sem.lookup. cbn [get]. rewrite (proj2 (str_eqb_neq _ _)); [reflexivity|]. intros N. apply Hy. left. symmetry. apply good_inj; auto.
        - intros a Ha. unfold Sem.lookup. cbn [get]. rewrite (proj2 (str_eqb_neq _ _)); [reflexivity|]. intros N.
          destruct (r_shared _ _ _ _ _ _ _ _ _ _ R a Ha) as [->|Hga]; [exact (norm_item x Hg (eq_sym N))|]. rewrite rn_good in N by exact Hga.
          apply good_inj in N; auto. subst. contradiction.
        - unfold Sem.lookup. cbn [get]. rewrite (proj2 (str_eqb_neq _ _)); [reflexivity|]. intros N. exact (norm_item x Hg (eq_sym N)).
        - apply mono_grow.
        - intros y [<-|[]]. exists m_default. rewrite (ch_get_insert _ _ _ _ _ E1), str_eqb_refl. split; [reflexivity|].
          unfold slot_rel. cbn [l_refs m_default l_init get]. rewrite str_eqb_refl. split; [reflexivity|]. exists (length st).
          unfold Sem.lookup. cbn [get]. rewrite !str_eqb_refl. auto.
        - intros y Hy. split; [exact Hy|]. intros [<-|[]]. exact (HF x (or_introl eq_refl) Hy). }
      destruct (IH _ _ _ _ _ _ R1 (fun y Hy => Hb y (or_intror Hy)) (fun y Hy => HF y (or_intror Hy)) E) as (te' & re' & st' & D1 & D2 & M & X & R').
      exists te', re', st'. split; [exact D1|]. split; [exact D2|]. split; [eapply mono_trans; [apply mono_grow|exact M]|]. split.
      + intros n Hn Hx. rewrite X; [|exact Hn|intros y Hy; apply Hx; right; exact Hy]. unfold Sem.lookup. cbn [get].
        rewrite (proj2 (str_eqb_neq _ _)); [reflexivity|]. apply Hx; [left; reflexivity|exact Hg].
      + unfold bind_vars in *. cbn [map rev]. rewrite <- app_assoc. exact R'.
  Qed.
  Lemma fields_free F xs : forallb (fun x => negb (mem_str x F)) xs = true -> forall x, In x xs -> ~ In x F.
  Proof. intros H x Hx HF. rewrite forallb_forall in H. apply H in Hx. apply mem_str_In in HF. rewrite HF in Hx. discriminate Hx. Qed.
  Lemma declare_sim A1 A2 F lp G m b t c p m' : flushed inp m b c -> visit_target m false t = Ok (p, m') -> scoped_target A1 A2 t = true ->
    forallb (fun x => negb (mem_str x F)) (pattern_names t) = true ->
    Sim A1 A2 F lp G (bind_vars true (pattern_names t) G) m m' b [] (mean w inp lp (TLet t None)) (c ++ [SDeclare p]) (pattern_names t) false.
  Proof.
    intros Fl V HT HF. apply Sim_flush; [exact Fl|]. intros te re st R. cbn [mean]. rewrite exec_one. cbn [exec].
    apply grows_target in V as (_ & -> & V). rewrite pattern_names_norm. rewrite target_names_norm in V.
    destruct (declare_rel A1 A2 F lp _ _ _ _ _ _ _ R (proj2 (bindable_inv _ _ _ HT)) (fields_free _ _ HF) V) as (te' & re' & st' & -> & -> & M & X & R').
    exists re'. auto.
  Qed.
  Lemma shadow_none A1 A2 F G m te re st lp t : Rel A1 A2 F G m te re st lp -> is_shadowing_variable m t = Ok false -> plain_target t = true ->
    forall x, In x (pattern_names t) -> match ch_get m (norm x) with None => True | Some meta => l_init meta = false end.
  Proof.
    intros _. induction t using target_ind'; intros E Hp x Hx; cbn [is_shadowing_variable pattern_names plain_target] in *; try discriminate E.
    - destruct (str_eqb s (lit "_")); [destruct Hx|]. destruct Hx as [<-|[]]. destruct (ch_get m (norm s)); [injection E as E; exact E|exact I].
    - induction H as [|t l Ht Hl IH]; [destruct Hx|]. cbn [map concat forallb] in *. apply andb_prop in Hp as [P1 P2].
      destruct (is_shadowing_variable m t) as [[]| |]; cbn [rbind] in E; try discriminate E. apply in_app_or in Hx as [Hx|Hx]; [exact (Ht eq_refl P1 x Hx)|exact (IH E P2 Hx)].
    - induction H as [|[k t] l Ht Hl IH]; [destruct Hx|]. cbn [map concat forallb fst snd] in *. apply andb_prop in Hp as [P1 P2]. apply andb_prop in P1 as [_ P1].
      destruct (is_shadowing_variable m t) as [[]| |]; cbn [rbind] in E; try discriminate E. apply in_app_or in Hx as [Hx|Hx]; [exact (Ht eq_refl P1 x Hx)|exact (IH E P2 Hx)].
  Qed.

  Definition new_vars (t : target) (v : V w) (te : env w) (st : store w) : out (mres w) :=
    let^ bs := of_opt (pmatch w t v) in Done (Some [], bind_vals w bs te, st, Next).
  Lemma mean_let lp t e te st v : teval w inp te st lp Unset e = Done v -> mean w inp lp (TLet t (Some e)) te st =
    match t with
    | TName x => match lookup te x with
                 | Some (Loc _ l) => match nth_error st l with Some None => Done (Some [], (x, Val w v) :: te, set_loc w st l v, Next) | _ => Unset end
                 | _ => new_vars t v te st
                 end
    | _ => new_vars t v te st
    end.
  Proof. intros E. cbn [mean]. rewrite E. reflexivity. Qed.
  Lemma let_kind A1 A2 F G m te re st lp t (sh : bool) : Rel A1 A2 F G m te re st lp -> scoped_target A1 A2 t = true ->
    match t with TName x => negb (unset G x) || str_eqb (norm x) x | _ => forallb (fun x => negb (unset G x)) (pattern_names t) end = true ->
    is_shadowing_variable m t = Ok sh ->
    ((forall p r, let_stmt m sh t p r = SLet p r) /\ (forall x l, t = TName x -> lookup te x <> Some (Loc w l)) /\
       (sh = false -> forall x, In x (pattern_names t) -> ch_get m (norm x) = None)) \/
    (exists x l meta, t = TName x /\ good x = true /\ ~ In x A1 /\ norm x = x /\ sh = false /\ (forall p r, let_stmt m sh t p r = SAssign p r) /\
       lookup te x = Some (Loc w l) /\ lookup re (norm x) = Some (Loc w l) /\ ch_get m (norm x) = Some meta /\ l_refs meta = None).
  Proof.
    intros R HT HU HS. destruct (bindable_inv _ _ _ HT) as [Hp Hb].
    assert (Other : (forall x, t <> TName x) -> (forall p r, let_stmt m sh t p r = SLet p r) /\ (forall x l, t = TName x -> lookup te x <> Some (Loc w l)) /\
       (sh = false -> forall x, In x (pattern_names t) -> ch_get m (norm x) = None)).
    { intros NT. split; [|split].
      - intros p r. unfold let_stmt. destruct t; try (cbn [is_name]; rewrite orb_true_r; reflexivity). exfalso. eapply NT; reflexivity.
      - intros x l ->. exfalso. eapply NT; reflexivity.
      - intros -> x Hx. pose proof (shadow_none A1 A2 F G m te re st lp t R HS Hp x Hx) as HN. destruct (ch_get m (norm x)) as [meta|] eqn:E; [exfalso|reflexivity].
        destruct (Hb x Hx) as (Hg & _ & HA). pose proof (r_some _ _ _ _ _ _ _ _ _ _ R x meta Hg E) as S. unfold slot_rel in S.
        assert (HU' : unset G x = false).
        { apply negb_true_iff. assert (HU2 : forallb (fun x => negb (unset G x)) (pattern_names t) = true) by (destruct t; auto; exfalso; eapply NT; reflexivity).
          rewrite forallb_forall in HU2. auto. }
        unfold unset in HU'. destruct (l_refs meta), (get x G) as [[]|]; try tauto; try discriminate HU'. destruct S as ([S|S] & _); [congruence|tauto]. }
    destruct t as [x| | | | | | | |]; try (left; apply Other; discriminate). clear Other. cbn [is_shadowing_variable pattern_names is_name] in *.
    destruct (str_eqb x (lit "_")) eqn:Eu.
    { apply str_eqb_eq in Eu. subst x. left.
      assert (EN : ch_get m (lit "_") = None) by (apply (key_reserved w A1 A2 F G m te re st lp R); do 2 right; left; reflexivity).
      change (norm (lit "_")) with (lit "_") in HS. rewrite EN in HS. injection HS as <-. split; [|split].
      - intros p r. unfold let_stmt. cbn [is_name orb]. rewrite EN. reflexivity.
      - intros x l E. injection E as <-. rewrite (r_under _ _ _ _ _ _ _ _ _ _ R). discriminate.
      - intros _ x []. }
    destruct (Hb x (or_introl eq_refl)) as (Hg & HA1 & HA2). destruct (ch_get m (norm x)) as [meta|] eqn:E.
    - injection HS as <-. pose proof (r_some _ _ _ _ _ _ _ _ _ _ R x meta Hg E) as S. unfold slot_rel in S.
      destruct (l_refs meta) as [r|] eqn:El, (get x G) as [[]|] eqn:EG; try tauto.
      + destruct S as (S1 & l & S2 & S3). right. exists x, l, meta. unfold unset in HU. rewrite EG in HU. cbn [negb orb] in HU. apply str_eqb_eq in HU.
        split; [reflexivity|]. split; [exact Hg|]. split; [exact HA1|]. split; [exact HU|]. split; [exact S1|]. split; [|auto].
        intros p r. unfold let_stmt. cbn [is_name]. rewrite S1. cbn [orb]. rewrite HU in E. rewrite E. reflexivity.
      + destruct S as ([S1|S1] & v & s & S2 & _); [|tauto]. left. split; [|split].
        * intros p r. unfold let_stmt. rewrite S1. reflexivity.
        * intros y l Ey. injection Ey as <-. rewrite S2. discriminate.
        * rewrite S1. discriminate.
    - injection HS as <-. left. destruct (r_none _ _ _ _ _ _ _ _ _ _ R x Hg E) as [_ EL]. split; [|split].
      + intros p r. unfold let_stmt. cbn [is_name orb]. destruct (ch_get m x) eqn:Ex; [exfalso|reflexivity].
        destruct (r_keys _ _ _ _ _ _ _ _ _ _ R x) as [(y & Hy & N)|(id & N)]; [congruence| |].
        * assert (norm x = x) by (rewrite N at 1; rewrite normalize_idem; symmetry; exact N). congruence.
        * apply good_inv in Hg as (_ & _ & Hf & _). rewrite N, fb_name_is in Hf. discriminate Hf.
      + intros y l Ey. injection Ey as <-. rewrite EL. discriminate.
      + intros _ y [<-|[]]. exact E.
  Qed.
  Lemma set_loc_spec st l v : nth_error st l = Some None -> mono st (set_loc w st l v) /\ nth_error (set_loc w st l v) l = Some (Some v).
  Proof.
    revert l. induction st as [|o st IH]; intros [|l] H; try discriminate H; cbn [nth_error set_loc] in *.
    - injection H as ->. split; [|reflexivity]. intros [|k] u Hu; [discriminate Hu|exact Hu].
    - destruct (IH l H) as [M E]. split; [|exact E]. intros [|k] u Hu; [exact Hu|]. cbn [nth_error] in *. apply M. exact Hu.
  Qed.
  Lemma new_rel A1 A2 F G m m' te re st lp t p v : Rel A1 A2 F G m te re st lp -> scoped_target A1 A2 t = true ->
    forallb (fun x => negb (mem_str x F)) (pattern_names t) = true -> visit_target m true t = Ok (p, m') ->
    match pmatch w t v with
    | Some bs => pmatch w p v = Some (map norm_fst bs) /\ Rel A1 A2 F (bind_vars false (pattern_names t) G) m' (bind_vals w bs te) (bind_vals w (map norm_fst bs) re) st lp /\
                 (forall n, ~ In n (map norm (pattern_names t)) -> lookup (bind_vals w (map norm_fst bs) re) n = lookup re n)
    | None => pmatch w p v = None
    end.
  Proof.
    intros R HT HF V. destruct (bindable_inv _ _ _ HT) as [Hp Hb]. assert (Ep : p = norm_target t) by (apply grows_target in V; tauto).
    rewrite Ep, pmatch_norm by exact Hp. destruct (pmatch w t v) as [bs|] eqn:E; cbn [option_map]; [|reflexivity]. split; [reflexivity|]. split.
    - pose proof (Rel_bind w A1 A2 F G m m' te re st lp t p v bs R HT V E) as R'. rewrite minus_id in R'; [exact R'|]. apply fields_free. exact HF.
    - intros n Hn. apply lookup_bind_other. rewrite map_map. cbn [norm_fst fst]. intros H. apply Hn. apply in_map_iff in H as (y & <- & Hy). apply in_map.
      apply (pmatch_names w t Hp v bs E). apply in_map. exact Hy.
  Qed.
  Lemma ext_norm xs re re' : (forall x, In x xs -> good x = true) -> (forall n, ~ In n (map norm xs) -> lookup re' n = lookup re n) -> ext xs re re'.
  Proof. intros Hg H n _ Hn. apply H. intros Hi. apply in_map_iff in Hi as (y & <- & Hy). exact (Hn y Hy (Hg y Hy) eq_refl). Qed.
  Lemma let_sim A1 A2 F lp G m b t e r (sh : bool) c b1 p m' : visit_expr_root inp m e = Ok r -> is_shadowing_variable m t = Ok sh ->
    (if sh then flushed inp m b c /\ b1 = [] else c = [] /\ b1 = b) -> visit_target m true t = Ok (p, m') ->
    scoped_target A1 A2 t = true -> forallb (fun x => negb (mem_str x F)) (pattern_names t) = true -> scoped_expr F A2 G e = true ->
    match t with TName x => negb (unset G x) || str_eqb (norm x) x | _ => forallb (fun x => negb (unset G x)) (pattern_names t) end = true ->
    Sim A1 A2 F lp G (bind_vars false (pattern_names t) G) m m' b b1 (mean w inp lp (TLet t (Some e))) (c ++ [let_stmt m sh t p r]) (pattern_names t) false.
  Proof.
    intros V HS HB VT HT HF HE HU. destruct (bindable_inv _ _ _ HT) as [Hp Hb].
    assert (Hgood : forall x, In x (pattern_names t) -> good x = true) by (intros x Hx; apply Hb; exact Hx).
    assert (Fail : forall te re st, Rel A1 A2 F G m te re st lp -> teval w inp te st lp Unset e = Fails -> exec w (let_stmt m sh t p r) re st = Fails).
    { intros te re st R ET. pose proof (rel_root w inp A1 A2 F G m te re st lp R wok e r HE V ltac:(congruence)) as ER. rewrite ET in ER.
      unfold let_stmt. destruct (_ || _); cbn [exec]; rewrite ER; reflexivity. }
    destruct sh.
    - destruct HB as [Fl ->]. apply Sim_flush; [exact Fl|]. intros te re st R. rewrite exec_one.
      pose proof (rel_root w inp A1 A2 F G m te re st lp R wok e r HE V) as ER.
      destruct (teval w inp te st lp Unset e) as [v| |] eqn:ET; [|cbn [mean]; rewrite ET; apply (Fail te re st R ET)|cbn [mean]; rewrite ET; exact I]. specialize (ER ltac:(discriminate)).
      destruct (let_kind A1 A2 F G m te re st lp t true R HT HU HS) as [(K1 & K2 & _)|(x & l & meta & _ & _ & _ & _ & K & _)]; [|discriminate K].
      rewrite K1. cbn [exec]. rewrite ER. cbn [obnd].
      assert (EM : match t with
        | TName x => match lookup te x with
                     | Some (Loc _ l) => match nth_error st l with Some None => Done (Some [], (x, Val w v) :: te, set_loc w st l v, Next) | _ => Unset end
                     | _ => new_vars t v te st
                     end
        | _ => new_vars t v te st end = new_vars t v te st).
      { destruct t as [x| | | | | | | |]; try reflexivity. specialize (K2 x). destruct (lookup te x) as [[u|l]|]; try reflexivity. exfalso. exact (K2 l eq_refl eq_refl). }
      rewrite (mean_let lp t e te st v ET), EM. unfold new_vars. pose proof (new_rel A1 A2 F G m m' te re st lp t p v R HT HF VT) as NR.
      destruct (pmatch w t v) as [bs|]; cbn [of_opt obnd]; [|rewrite NR; reflexivity]. destruct NR as (-> & R' & HL). cbn [of_opt obnd].
      exists (bind_vals w (map norm_fst bs) re). split; [reflexivity|]. split; [apply mono_refl|]. split; [apply ext_norm; assumption|auto].
    - destruct HB as [-> ->]. intros te re st p0 R P. cbn [app]. rewrite exec_one.
      pose proof (rel_root w inp A1 A2 F G m te re st lp R wok e r HE V) as ER.
      destruct (teval w inp te st lp Unset e) as [v| |] eqn:ET; [|cbn [mean]; rewrite ET; apply (Fail te re st R ET)|cbn [mean]; rewrite ET; exact I]. specialize (ER ltac:(discriminate)).
      destruct (let_kind A1 A2 F G m te re st lp t false R HT HU HS) as [(K1 & K2 & K3)|(x & l & meta & -> & Hg & HA1 & HN & _ & K1 & L1 & L2 & E1 & E2)].
      + rewrite K1. cbn [exec]. rewrite ER. cbn [obnd].
        assert (EM : match t with
          | TName x => match lookup te x with
                       | Some (Loc _ l) => match nth_error st l with Some None => Done (Some [], (x, Val w v) :: te, set_loc w st l v, Next) | _ => Unset end
                       | _ => new_vars t v te st
                       end
          | _ => new_vars t v te st end = new_vars t v te st).
        { destruct t as [x| | | | | | | |]; try reflexivity. specialize (K2 x). destruct (lookup te x) as [[u|l]|]; try reflexivity. exfalso. exact (K2 l eq_refl eq_refl). }
        rewrite (mean_let lp t e te st v ET), EM. unfold new_vars. pose proof (new_rel A1 A2 F G m m' te re st lp t p v R HT HF VT) as NR.
        destruct (pmatch w t v) as [bs|]; cbn [of_opt obnd]; [|rewrite NR; reflexivity]. destruct NR as (-> & R' & HL). cbn [of_opt obnd]. right.
        exists [], (bind_vals w (map norm_fst bs) re). split; [reflexivity|]. split; [apply mono_refl|]. split; [apply ext_norm; assumption|]. split; [discriminate|].
        exists p0. split; [rewrite tapp_nil_r, tapp_nil_l; reflexivity|]. split; [exact R'|].
        assert (HNew : forall k, In k (map norm (pattern_names t)) -> ch_get m k = None) by (intros k Hk; apply in_map_iff in Hk as (y & <- & Hy); exact (K3 eq_refl y Hy)).
        destruct (target_get _ _ _ _ _ VT) as [_ HM].
        eapply PInv_step; [exact P|eapply rel_refs; exact R|exact (r_keys _ _ _ _ _ _ _ _ _ _ R)|exact (r_keys _ _ _ _ _ _ _ _ _ _ R')| | |apply mono_refl].
        * intros y Hy Hk.
          assert (Hn : ~ In (norm y) (map norm (pattern_names t))).
          { intros Hi. destruct Hk as [Hk|Hk]; [exact (Hk (HNew _ Hi))|]. apply in_map_iff in Hi as (z & Ez & Hz). rewrite (good_inj z y (Hgood z Hz) Hy Ez) in Hz. exact (fields_free _ _ HF y Hz Hk). }
          assert (EM' : ch_get m' (norm y) = ch_get m (norm y)).
          { rewrite HM. destruct (mem_str (norm y) _) eqn:Em; [apply mem_str_In in Em; contradiction|reflexivity]. }
          split; [apply same_get; symmetry; exact EM'|rewrite EM'; exact Hk].
        * intros n Hn. split.
          -- destruct Hn as [->|[Hn|Hn]]; [left; reflexivity|right; left; eapply keeps_target; eassumption|right; right; exact Hn].
          -- apply HL. intros Hi. destruct Hn as [->|[Hn|(a & Ha & ->)]].
             ++ apply in_map_iff in Hi as (z & Ez & Hz). exact (norm_item z (Hgood z Hz) Ez).
             ++ exact (Hn (HNew n Hi)).
             ++ apply in_map_iff in Hi as (z & Ez & Hz). destruct (Hb z Hz) as (Gz & Nz & _). destruct (r_shared _ _ _ _ _ _ _ _ _ _ R a Ha) as [->|Hga]; [exact (norm_item z Gz Ez)|].
                rewrite rn_good in Ez by exact Hga. apply Nz. rewrite (good_inj z a Gz Hga Ez). exact Ha.
      + rewrite (mean_let lp _ e te st v ET), K1. cbn [exec]. rewrite ER. cbn [obnd]. rewrite L1.
        assert (Ep : p = TName (norm x)).
        { apply grows_target in VT as (_ & -> & _). cbn [norm_target]. rewrite (proj2 (str_eqb_neq x (lit "_"))); [reflexivity|]. intros ->. discriminate Hg. }
        rewrite Ep, L2. destruct (nth_error st l) as [[u|]|] eqn:EN; [exact I| |exact I]. right.
        destruct (set_loc_spec st l v EN) as [M ES]. exists [], re. split; [reflexivity|]. split; [exact M|]. split; [apply ext_refl|]. split; [discriminate|].
        exists p0. split; [rewrite tapp_nil_r, tapp_nil_l; reflexivity|]. destruct (target_get _ _ _ _ _ VT) as [_ HM].
        assert (PN : pattern_names (TName x) = [x]).
        { cbn [pattern_names]. rewrite (proj2 (str_eqb_neq x (lit "_"))); [reflexivity|]. intros ->. discriminate Hg. }
        rewrite PN in *. cbn [map mem_str] in HM.
        assert (R' : Rel A1 A2 F (bind_vars false [x] G) m' ((x, Val w v) :: te) re (set_loc w st l v) lp).
        { eapply Rel_over with (xs := [x]); [exact R|apply incl_refl|exact (r_shared _ _ _ _ _ _ _ _ _ _ R)|apply incl_refl|..].
          - intros y [<-|[]]. exact Hg.
          - intros k Hk. rewrite HM. rewrite (proj2 (str_eqb_neq k (norm x))); [reflexivity|]. intros ->. apply Hk. left. reflexivity.
          - intros y Hy. cbn. rewrite (proj2 (str_eqb_neq y x)); [reflexivity|]. intros ->. apply Hy. left. reflexivity.
          - intros y Hy. unfold Sem.lookup. cbn [get]. rewrite (proj2 (str_eqb_neq y x)); [reflexivity|]. intros ->. apply Hy. left. reflexivity.
          - reflexivity.
          - reflexivity.
          - reflexivity.
          - exact M.
          - intros y [<-|[]]. exists m_initialized. rewrite HM, str_eqb_refl. split; [reflexivity|].
            unfold slot_rel. cbn [l_refs m_initialized l_init bind_vars map rev app get]. rewrite str_eqb_refl. split; [left; reflexivity|]. exists v, (Loc w l).
            unfold Sem.lookup at 1. cbn [get]. rewrite str_eqb_refl. split; [reflexivity|]. split; [exact L2|]. cbn [slot_value]. rewrite ES. reflexivity.
          - intros y Hy. split; [exact Hy|]. intros [<-|[]]. exact (fields_free _ _ HF x (or_introl eq_refl) Hy). }
        split; [exact R'|].
        eapply PInv_step; [exact P|eapply rel_refs; exact R|exact (r_keys _ _ _ _ _ _ _ _ _ _ R)|exact (r_keys _ _ _ _ _ _ _ _ _ _ R')| | |exact M].
        * intros y Hy Hk. destruct (str_eqb (norm y) (norm x)) eqn:Ey.
          -- apply str_eqb_eq in Ey. unfold same_res, ch_resolve. cbv zeta. rewrite Ey, E1, HM, str_eqb_refl, E2. split; [reflexivity|left; discriminate].
          -- assert (EM' : ch_get m' (norm y) = ch_get m (norm y)) by (rewrite HM, Ey; reflexivity).
             split; [apply same_get; symmetry; exact EM'|rewrite EM'; exact Hk].
        * intros n Hn. split; [|reflexivity]. destruct Hn as [->|[Hn|Hn]]; [left; reflexivity|right; left; eapply keeps_target; eassumption|right; right; exact Hn].
  Qed.
End Sim.
