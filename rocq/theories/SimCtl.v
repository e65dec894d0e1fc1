(** * The cases of the simulation: if, match and for. *)
From Coq Require Import ZArith ZifyBool ZifyNat ZifyN.
From Verif Require Import Base Ws Ast Ident IdentFacts GenExpr Heritage Gen Sem RefSem RexprFacts FlushFacts Scoped SimExpr SimFacts GenSteps SimRel SimBuf SimNode.
Local Open Scope N_scope.

Section Ctl.
  Variables (w : world) (inp : ginput).
  Hypothesis wok : world_ok w.
  Notation lookup := (lookup w).
  Notation Rel := (Rel w).
  Notation PInv := (PInv w inp).
  Notation mono := (mono w).
  Notation xlist := (exec_list w (exec w)).
  Notation mlist lp := (mean_list w (mean w inp lp)).
  Notation Sim := (Sim w inp).
  Notation Body := (Body w).

  (** A construct after which all variables are as before *)
  Definition Ctl (mr : out (mres w)) (xr : out (res4 w)) (te re : env w) (st : store w) : Prop :=
    match mr with
    | Unset => True
    | Fails => xr = Fails
    | Done (o, te', st', fl) => match o with None => xr = Fails | Some s => xr = Done (s, re, st', fl) /\ mono st st' /\ te' = te end
    end.
  Lemma Ctl_body A1 A2 F lp G m mf s :
    (forall te re st, Rel A1 A2 F G m te re st lp -> Ctl (mf te st) (exec w s re st) te re st) -> Body A1 A2 F lp G G m m mf [s] [].
  Proof.
    intros H te re st R. specialize (H te re st R). unfold Ctl in H. rewrite exec_one. destruct (mf te st) as [[[[o te'] st'] fl]| |]; [|exact H|exact H].
    destruct o as [t|]; [|exact H]. destruct H as (-> & M & ->). exists re. split; [reflexivity|]. split; [exact M|]. split; [apply ext_refl|].
    intros _. eapply Rel_store; eassumption.
  Qed.
  Lemma scope_ctl A1 A2 F lp G G' m m1 body c tps te te' re re' st : Body A1 A2 F lp G G' m m1 (mlist lp body) c tps ->
    Rel A1 A2 F G m te' re' st lp -> Ctl (mean_scope w (mean w inp lp) body te te' st) (exec_block w (exec w) c re re' st) te re st.
  Proof.
    intros H R. specialize (H te' re' st R). unfold Ctl, mean_scope, exec_block.
    destruct (mean_list w (mean w inp lp) body te' st) as [[[[o te1] st1] fl]| |]; cbn [obnd]; [|rewrite H; reflexivity|exact I].
    destruct o as [s|]; [|rewrite H; reflexivity]. destruct H as (re1 & X & M & _). rewrite X. cbn [obnd]. auto.
  Qed.
  Lemma Sim_chain A1 A2 F lp G G' m0 m m' b b' mf c tps oo : (forall k, ch_get m k = ch_get m0 k) ->
    Sim A1 A2 F lp G G' m m' b b' mf c tps oo -> Sim A1 A2 F lp G G' m0 m' b b' mf c tps oo.
  Proof.
    intros HM H te re st p R P. assert (R1 : Rel A1 A2 F G m te re st lp) by (eapply Rel_chain; eassumption).
    assert (P1 : PInv A1 F m re st b p).
    { eapply PInv_step; [exact P|eapply rel_refs; exact R|exact (r_keys _ _ _ _ _ _ _ _ _ _ R)|exact (r_keys _ _ _ _ _ _ _ _ _ _ R1)| | |apply mono_refl].
      - intros y _ Hy. rewrite HM. split; [apply same_get; symmetry; apply HM|exact Hy].
      - intros n Hn. split; [|reflexivity]. unfold live in *. rewrite HM. exact Hn. }
    specialize (H te re st p R1 P1). destruct (mf te st) as [[[[o te'] st'] fl]| |]; [|exact H|exact H].
    destruct H as [H|(s & re' & X & M & E & OO & D)]; [left; exact H|right]. exists s, re'. split; [exact X|]. split; [exact M|]. split; [exact E|]. split; [|exact D].
    intros HO. destruct (OO HO) as [O1 O2]. split; [exact O1|]. intros n Hn. apply O2. rewrite HM. exact Hn.
  Qed.

  (** ** Tests *)
  Definition is_chain (r : rexpr) : bool := match r with RBin op _ _ => str_eqb op (lit "&&") || str_eqb op (lit "||") | _ => false end.
  Lemma not_chain r : is_chain r = false -> let_chain r = Some (r, []).
  Proof. destruct r; try reflexivity. cbn [is_chain let_chain]. intros H. apply orb_false_iff in H as [-> ->]. reflexivity. Qed.
  Lemma visit_chain A1 A2 F G m te re st lp e r wr : Rel A1 A2 F G m te re st lp -> scoped_expr F A2 G e = true -> is_and_or e = false ->
    visit_expr inp m e = Ok (r, wr) -> is_chain r = false.
  Proof.
    intros R HS HA E. destruct (scoped_inv w A1 A2 F G m te re st lp R e HS) as (Hp & Hf & _).
    destruct e as [| | | |x| | | | | | | | | | | | | | |]; try discriminate HA; try discriminate Hp;
      try (match type of E with visit_expr _ _ ?e = _ => lazymatch e with Filter _ _ => fail | Call _ _ => fail | Attr _ _ => fail | _ => idtac end end;
           cbn [visit_expr] in E; inv_ok E; try inv_ok E0; reflexivity).
    - injection E as <- <-. cbn [plain] in Hp. destruct (str_eqb x (lit "self")) eqn:Es; [unfold visit_var; rewrite Es; reflexivity|]. cbn [orb] in Hp.
      rewrite visit_var_cases by exact Hp. destruct (ch_get m (norm x)) as [meta|] eqn:Em; [|reflexivity].
      destruct (l_refs meta) as [r|] eqn:El; [|reflexivity].
      pose proof (r_some _ _ _ _ _ _ _ _ _ _ R x meta Hp Em) as S. unfold slot_rel in S. rewrite El in S.
      destruct (get x G) as [[]|]; try tauto. destruct S as (_ & S1 & S2 & _). rewrite S2. destruct r; try discriminate S1; reflexivity.
    - cbn [visit_expr] in E. destruct (var_loop e).
      + change (v_plain (loop_attr name) = Ok (r, wr)) in E. inv_ok E. unfold loop_attr in E.
        repeat match type of E with (if ?c then _ else _) = _ => destruct c end; try discriminate E; injection E as <-; reflexivity.
      + change (v_plain (let! r0 := v_sub inp m e in Ok (RField r0 (norm name))) = Ok (r, wr)) in E. inv_ok E. reflexivity.
    - rewrite visit_filter in E.
      destruct (str_eqb name (lit "as_ref")); [destruct args as [|a [|]]; try discriminate E; inv_ok E; reflexivity|].
      destruct (str_eqb name (lit "deref")); [destruct args as [|a [|]]; try discriminate E; inv_ok E; reflexivity|].
      destruct (str_eqb name (lit "escape") || _).
      { destruct args as [|a [|b [|c l]]]; try discriminate E; [|destruct b; try discriminate E|destruct b; discriminate E]; inv_ok E; reflexivity. }
      destruct (str_eqb name (lit "fmt")).
      { destruct args as [|a [|b [|c l]]]; try discriminate E; destruct b; try discriminate E. inv_ok E; reflexivity. }
      destruct (str_eqb name (lit "format")); [destruct args as [|a l]; try discriminate E; destruct a; try discriminate E; inv_ok E; reflexivity|].
      destruct (str_eqb name (lit "join")); [inv_ok E; reflexivity|].
      destruct (_ || _); [destruct (negb _); [discriminate E|]; destruct args as [|a [|]]; try discriminate E; inv_ok E; reflexivity|].
      destruct (str_eqb name (lit "safe")); [destruct args as [|a [|]]; try discriminate E; inv_ok E; reflexivity|]. inv_ok E. reflexivity.
    - cbn [is_and_or] in HA. cbn [visit_expr] in E. inv_ok E. match goal with H : rbind _ _ = Ok r |- _ => inv_ok H end. exact HA.
    - rewrite visit_call in E.
      match type of E with match ?e with _ => _ end = _ => destruct e end; cbv zeta in E; try (inv_ok E; reflexivity).
      match type of E with match ?e with _ => _ end = _ => destruct e end; try (inv_ok E; reflexivity).
      destruct (str_eqb s (lit "loop")); [|inv_ok E; reflexivity]. destruct (str_eqb name (lit "cycle")); [|discriminate E].
      destruct args as [|a [|]]; [discriminate E| |destruct a; try discriminate E; match type of E with (match ?x with _ => _ end) = _ => destruct x; discriminate E end].
      destruct a; try (inv_ok E; reflexivity). match type of E with (match ?x with _ => _ end) = _ => destruct x; [discriminate E|] end. inv_ok E; reflexivity.
  Qed.

  Definition Test A1 A2 F G m lp st (mr : out (option (env w))) (xr : out (option (env w))) : Prop :=
    match mr with
    | Unset => True
    | Fails => xr = Fails
    | Done None => xr = Done None
    | Done (Some te') => exists re', xr = Done (Some re') /\ Rel A1 A2 F G m te' re' st lp
    end.
  Lemma bind_test A1 A2 F G m m1 te re st lp t p v : Rel A1 A2 F G m te re st lp -> scoped_target A1 A2 t = true -> visit_target m true t = Ok (p, m1) ->
    match pmatch w t v with
    | Some bs => pmatch w p v = Some (map norm_fst bs) /\
                 Rel A1 A2 (minus F (pattern_names t)) (bind_vars false (pattern_names t) G) m1 (bind_vals w bs te) (bind_vals w (map norm_fst bs) re) st lp
    | None => pmatch w p v = None
    end.
  Proof.
    intros R HT V. destruct (bindable_inv _ _ _ HT) as [Hp _]. pose proof (proj1 (target_get _ _ _ _ _ V)) as ->. rewrite pmatch_norm by exact Hp.
    destruct (pmatch w t v) as [bs|] eqn:E; cbn [option_map]; [|reflexivity]. split; [reflexivity|]. eapply Rel_bind; eassumption.
  Qed.
  Lemma test_ok A1 A2 F G m te re st lp t rt m1 F' G' : Rel A1 A2 F G m te re st lp -> test_code inp m t rt m1 -> scoped_test F A1 A2 G t = Some (F', G') ->
    Test A1 A2 F' G' m1 lp st (ref_test w inp te st lp t) (test_true w rt re st).
  Proof.
    intros R TC HS. destruct t as [[tg e]|]; cbn [test_code scoped_test ref_test] in *.
    2: { destruct TC as [-> ->]. injection HS as <- <-. cbn. eauto. }
    cbn [ct_target ct_expr] in *. destruct tg as [p|].
    2: { destruct TC as (e' & V & -> & ->). destruct (scoped_expr F A2 G e) eqn:HE; [|discriminate HS]. injection HS as <- <-. cbn [test_true].
         pose proof (rel_root w inp A1 A2 F G m te re st lp R wok e e' HE V) as ER. destruct (teval w inp te st lp Unset e) as [v| |]; [|rewrite ER by discriminate; reflexivity|exact I].
         rewrite ER by discriminate. cbn [obnd]. destruct (w_truth w v) as [bb|]; [|reflexivity]. cbn. destruct bb; [eauto|reflexivity]. }
    cbv zeta in HS.
    assert (Simple : forall e, (exists e' p', visit_expr_root inp m e = Ok e' /\ visit_target m true p = Ok (p', m1) /\ rt = RIfLet p' e') ->
      scoped_target A1 A2 p = true -> scoped_expr F A2 G e = true -> F' = minus F (pattern_names p) -> G' = bind_vars false (pattern_names p) G ->
      Test A1 A2 F' G' m1 lp st (let^ v := teval w inp te st lp Unset e in Done (match pmatch w p v with Some bs => Some (bind_vals w bs te) | None => None end)) (test_true w rt re st)).
    { clear e TC HS. intros e (e' & p' & V & VT & ->) HT HE -> ->. cbn [test_true].
      pose proof (rel_root w inp A1 A2 F G m te re st lp R wok e e' HE V) as ER. destruct (teval w inp te st lp Unset e) as [v| |]; [|rewrite ER by discriminate; reflexivity|exact I].
      rewrite ER by discriminate. cbn [obnd]. pose proof (bind_test A1 A2 F G m m1 te re st lp p p' v R HT VT) as BT.
      destruct (pmatch w p v) as [bs|]; cbn; [destruct BT as [-> BT]; eauto|rewrite BT; reflexivity]. }
    destruct (scoped_target A1 A2 p) eqn:HT; [|discriminate HS]. cbn [andb] in HS.
    assert (C : (exists op l r, e = BinOp op l r) \/ match e with BinOp _ _ _ => False | _ => True end) by (destruct e; try (right; exact I); left; eauto).
    destruct C as [(op & l & r & ->)|C].
    - destruct (str_eqb op (lit "&&")) eqn:Ea.
      + rewrite orb_true_r in TC. destruct TC as (l' & p' & r' & Vl & VT & Vr & ->). cbn [test_true].
        destruct (scoped_expr F A2 G l) eqn:Hl; [|discriminate HS]. destruct (is_and_or l) eqn:Hc; [discriminate HS|]. cbn [negb andb] in HS.
        destruct (scoped_expr (minus F (pattern_names p)) A2 (bind_vars false (pattern_names p) G) r) eqn:Hr; [|discriminate HS]. injection HS as <- <-. rewrite Ea.
        pose proof Vl as Vl'. unfold visit_expr_root in Vl'. apply rbind_Ok in Vl' as ([l1 wr] & Vl1 & Vl2). injection Vl2 as ->.
        rewrite (not_chain l' (visit_chain A1 A2 F G m te re st lp l l' wr R Hl Hc Vl1)).
        pose proof (rel_root w inp A1 A2 F G m te re st lp R wok l l' Hl Vl) as ER. destruct (teval w inp te st lp Unset l) as [v| |]; [|rewrite ER by discriminate; reflexivity|exact I].
        rewrite ER by discriminate. cbn [obnd]. pose proof (bind_test A1 A2 F G m m1 te re st lp p p' v R HT VT) as BT.
        destruct (pmatch w p v) as [bs|]; [|rewrite BT; reflexivity]. destruct BT as [-> BT]. cbn [app all_true].
        pose proof (rel_root w inp A1 A2 _ _ m1 _ _ st lp BT wok r r' Hr Vr) as ER2. destruct (teval w inp (bind_vals w bs te) st lp Unset r) as [x| |]; [|rewrite ER2 by discriminate; reflexivity|exact I].
        rewrite ER2 by discriminate. cbn [obnd]. destruct (w_truth w x) as [bb|]; [|reflexivity]. cbn. destruct bb; cbn; [eauto|reflexivity].
      + destruct (str_eqb op (lit "||")) eqn:Eo; [discriminate HS|]. cbn [orb negb andb] in *. destruct (scoped_expr F A2 G (BinOp op l r)) eqn:HE; [|discriminate HS]. injection HS as <- <-.
        apply Simple; auto.
    - destruct e; try contradiction;
        (match type of HS with (if scoped_expr F A2 G ?e then _ else _) = _ => destruct (scoped_expr F A2 G e) eqn:HE; [|discriminate HS] end;
         injection HS as <- <-; apply Simple; auto).
  Qed.
  Lemma test_grows m t rt m1 : test_code inp m t rt m1 -> grows m m1 /\ keeps m m1.
  Proof.
    assert (T : forall p p', visit_target m true p = Ok (p', m1) -> grows m m1 /\ keeps m m1) by (intros p p' V; split; [apply grows_target in V; tauto|eapply keeps_target; eassumption]).
    destruct t as [[tg e]|]; cbn [test_code]; [|intros [_ ->]; split; [apply grows_refl|apply keeps_refl]]. cbn [ct_target ct_expr]. destruct tg as [p|].
    - assert (S : forall e, (exists e' p', visit_expr_root inp m e = Ok e' /\ visit_target m true p = Ok (p', m1) /\ rt = RIfLet p' e') -> grows m m1 /\ keeps m m1)
        by (intros e0 (e' & p' & _ & V & _); exact (T _ _ V)).
      destruct e; try apply S. destruct (_ || _); [|apply S]. intros (l' & p' & r' & _ & V & _). exact (T _ _ V).
    - intros (e' & _ & _ & ->). split; [apply grows_refl|apply keeps_refl].
  Qed.

  (** ** Branches and arms *)
  Definition PList m b ts c m' b' : Prop := grows m m' /\ keeps m m' /\
    (forall A1 A2 F G G', scoped_list (scoped_node A1 A2 F) G ts = Some G' -> forallb only_output ts = true -> forall k, is_fb k = false -> ch_get m' k = ch_get m k) /\
    forall A1 A2 F lp G G', scoped_list (scoped_node A1 A2 F) G ts = Some G' -> Sim A1 A2 F lp G G' m m' b b' (mlist lp ts) c (tops ts) (forallb only_output ts).
  Definition PNode m b t c m' b' : Prop := grows m m' /\ keeps m m' /\
    (forall A1 A2 F G G', scoped_node A1 A2 F G t = Some G' -> only_output t = true -> forall k, is_fb k = false -> ch_get m' k = ch_get m k) /\
    forall A1 A2 F lp G G', scoped_node A1 A2 F G t = Some G' -> Sim A1 A2 F lp G G' m m' b b' (mean w inp lp t) c (top_names t) (only_output t).
  Definition PBranches m bs rbs m' : Prop := m' = m /\ forall A1 A2 F lp G te re st, Rel A1 A2 F G m te re st lp ->
    scoped_branches (scoped_node A1 A2) F A1 A2 G bs = true -> Ctl (mean_branches w inp (mean w inp lp) te st lp bs) (exec_branches w (exec w) re st rbs) te re st.
  Definition PArms m arms rarms m' : Prop := m' = m /\ forall A1 A2 F lp G te re st v, Rel A1 A2 F G m te re st lp ->
    scoped_arms (scoped_node A1 A2) F A1 A2 G arms = true -> Ctl (mean_arms w (mean w inp lp) te st v arms) (exec_arms w (exec w) re st v rarms) te re st.
  Lemma PList_body A1 A2 F lp G m ts c c' m' b' : PList m [] ts c m' b' -> flushed inp m' b' c' -> closed (scoped_node A1 A2 F) G ts = true ->
    exists G', Body A1 A2 F lp G G' m m' (mlist lp ts) (c ++ c') (tops ts).
  Proof.
    intros (_ & _ & _ & H) Fl HC. unfold closed in HC. destruct (scoped_list (scoped_node A1 A2 F) G ts) as [G'|] eqn:E; [|discriminate HC].
    exists G'. eapply Body_of; [apply H; exact E|exact Fl].
  Qed.
  Lemma branches_nil m : PBranches m [] [] m.
  Proof. split; [reflexivity|]. intros A1 A2 F lp G te re st R _. cbn. split; [reflexivity|]. split; [apply mono_refl|reflexivity]. Qed.
  Lemma branches_cons m t rt m1 body c1 m2 b2 c2 m3 bs rbs m4 : test_code inp (ch_push m) t rt m1 -> PList m1 [] body c1 m2 b2 -> flushed inp m2 b2 c2 ->
    ch_pop m2 = Ok m3 -> PBranches m3 bs rbs m4 -> PBranches m ((t, body) :: bs) ((rt, c1 ++ c2) :: rbs) m4.
  Proof.
    intros TC HL Fl PO [-> HB]. destruct (test_grows _ _ _ _ TC) as [G1 _].
    assert (m3 = m) as -> by (eapply pop_grows; [eapply grows_trans; [exact G1|exact (proj1 HL)]|exact PO]). split; [reflexivity|].
    intros A1 A2 F lp G te re st R HS. cbn [scoped_branches] in HS. apply andb_prop in HS as [HS1 HS2]. cbn [mean_branches exec_branches].
    destruct (scoped_test F A1 A2 G t) as [[F' G']|] eqn:ES; [|discriminate HS1].
    assert (Rp : Rel A1 A2 F G (ch_push m) te re st lp) by (eapply Rel_chain; [intros; apply ch_get_push|exact R]).
    pose proof (test_ok A1 A2 F G (ch_push m) te re st lp t rt m1 F' G' Rp TC ES) as T. unfold Test in T.
    destruct (ref_test w inp te st lp t) as [[te'|]| |]; cbn [obnd].
    - destruct T as (re' & -> & R'). cbn [obnd]. destruct (PList_body A1 A2 F' lp G' m1 body c1 c2 m2 b2 HL Fl HS1) as [G2 BD]. eapply scope_ctl; eassumption.
    - rewrite T. cbn [obnd]. apply (HB A1 A2 F lp G); assumption.
    - rewrite T. reflexivity.
    - exact I.
  Qed.
  Lemma arms_nil m : PArms m [] [] m.
  Proof. split; [reflexivity|]. intros A1 A2 F lp G te re st v R _. reflexivity. Qed.
  Lemma arms_cons m t p m1 body c1 m2 b2 c2 m3 arms rarms m4 : visit_target (ch_push m) true t = Ok (p, m1) -> PList m1 [] body c1 m2 b2 -> flushed inp m2 b2 c2 ->
    ch_pop m2 = Ok m3 -> PArms m3 arms rarms m4 -> PArms m ((t, body) :: arms) ((p, c1 ++ c2) :: rarms) m4.
  Proof.
    intros VT HL Fl PO [-> HB]. pose proof (proj1 (grows_target _ _ _ _ _ VT)) as G1.
    assert (m3 = m) as -> by (eapply pop_grows; [eapply grows_trans; [exact G1|exact (proj1 HL)]|exact PO]). split; [reflexivity|].
    intros A1 A2 F lp G te re st v R HS. cbn [scoped_arms] in HS. apply andb_prop in HS as [HS1 HS2]. apply andb_prop in HS1 as [HT HS1]. cbn [mean_arms exec_arms].
    assert (Rp : Rel A1 A2 F G (ch_push m) te re st lp) by (eapply Rel_chain; [intros; apply ch_get_push|exact R]).
    pose proof (bind_test A1 A2 F G (ch_push m) m1 te re st lp t p v Rp HT VT) as BT. destruct (pmatch w t v) as [bs|].
    - destruct BT as [-> BT]. destruct (PList_body A1 A2 _ lp _ m1 body c1 c2 m2 b2 HL Fl HS1) as [G2 BD]. eapply scope_ctl; eassumption.
    - rewrite BT. apply (HB A1 A2 F lp G); assumption.
  Qed.
  Lemma if_sim m b c bs rbs m' : flushed inp m b c -> PBranches m bs rbs m' -> PNode m b (TIf bs) (c ++ [SIf rbs]) m' [].
  Proof.
    intros Fl [-> HB]. split; [apply grows_refl|]. split; [apply keeps_refl|]. split; [intros A1 A2 F G G' _; discriminate|].
    intros A1 A2 F lp G G' HS. cbn [scoped_node] in HS. destruct (_ && _) eqn:HC; [|discriminate HS]. injection HS as <-. apply andb_prop in HC as [_ HC].
    apply Sim_flush; [exact Fl|]. apply Ctl_body. intros te re st R. cbn [mean exec]. apply (HB A1 A2 F lp G); assumption.
  Qed.
  Lemma match_sim m b c e r arms rarms m' : flushed inp m b c -> visit_expr_root inp m e = Ok r -> PArms m arms rarms m' ->
    PNode m b (TMatch e arms) (c ++ [SMatch r rarms]) m' [].
  Proof.
    intros Fl V [-> HB]. split; [apply grows_refl|]. split; [apply keeps_refl|]. split; [intros A1 A2 F G G' _; discriminate|].
    intros A1 A2 F lp G G' HS. cbn [scoped_node] in HS. destruct (_ && _) eqn:HC; [|discriminate HS]. injection HS as <-. apply andb_prop in HC as [HC1 HC].
    apply andb_prop in HC1 as [HE _]. apply Sim_flush; [exact Fl|]. apply Ctl_body. intros te re st R. cbn [mean exec].
    pose proof (rel_root w inp A1 A2 F G m te re st lp R wok e r HE V) as ER. destruct (teval w inp te st lp Unset e) as [v| |]; [|rewrite ER by discriminate; reflexivity|exact I].
    rewrite ER by discriminate. cbn [obnd]. apply (HB A1 A2 F lp G); assumption.
  Qed.

  (** ** Loops *)
  Lemma filter_same (k1 k2 : V w -> out bool) l : (forall v, k1 v <> Unset -> k2 v = k1 v) -> filter_items w k1 l <> Unset -> filter_items w k2 l = filter_items w k1 l.
  Proof.
    intros H. induction l as [|v l IH]; intros HU; [reflexivity|]. cbn [filter_items] in *. rewrite H by (eapply obnd_Unset; exact HU).
    destruct (k1 v) as [bb| |]; cbn [obnd] in *; try reflexivity. rewrite IH by (eapply obnd_Unset; exact HU). reflexivity.
  Qed.
  Definition some_item (l : list (V w)) : bool := match l with [] => false | _ => true end.
  Lemma loop_flag {T} (X : N -> bool -> bool -> V w -> T -> out (T * flow)) X' :
    (forall i f la v t b, X' i f la v (t, b) = let^ (t', fl) := X i f la v t in Done ((t', true), fl)) ->
    forall l i t b, loop_items w X' i l (t, b) = let^ (t', fl) := loop_items w X i l t in Done ((t', b || some_item l), fl).
  Proof.
    intros H. induction l as [|v l IH]; intros i t b; cbn [loop_items]; [cbn; rewrite orb_false_r; reflexivity|].
    rewrite H. destruct (X i (i =? 0) _ v t) as [[t' fl]| |]; cbn [obnd]; try reflexivity.
    destruct fl; cbn [obnd some_item]; rewrite ?IH, ?orb_true_r; reflexivity.
  Qed.
  Definition Step (mr : out (text * store w * flow)) (xr : out (str * store w * flow)) (st : store w) : Prop :=
    match mr with
    | Unset => True
    | Fails => xr = Fails
    | Done (o, st', fl) => match o with None => xr = Fails | Some s => xr = Done (s, st', fl) /\ mono st st' end
    end.
  Definition lost (mr : out (text * store w * flow)) : Prop := match mr with Done (o, _, _) => o = None | _ => True end.
  Lemma lost_step mr xr st : lost mr -> xr = Fails -> Step mr xr st.
  Proof. intros H ->. destruct mr as [[[o st'] fl]| |]; cbn in *; [rewrite H; reflexivity|reflexivity|exact I]. Qed.
  Lemma Step_mono mr xr st st' : mono st st' -> Step mr xr st' -> Step mr xr st.
  Proof.
    intros M H. destruct mr as [[[o st2] fl]| |]; cbn in *; try exact H. destruct o; [|exact H]. destruct H as [H1 H2]. split; [exact H1|]. eapply mono_trans; eassumption.
  Qed.
  Lemma loop_same (M : N -> bool -> bool -> V w -> text * store w -> out (text * store w * flow)) (X : N -> bool -> bool -> V w -> str * store w -> out (str * store w * flow)) st0 :
    (forall st, mono st0 st -> forall i f la v s, Step (M i f la v (Some s, st)) (X i f la v (s, st)) st) ->
    (forall st i f la v, lost (M i f la v (None, st))) ->
    forall l i s st, mono st0 st -> Step (loop_items w M i l (Some s, st)) (loop_items w X i l (s, st)) st.
  Proof.
    intros H HN.
    assert (HL : forall l i st, lost (loop_items w M i l (None, st))).
    { induction l as [|v l IH]; intros i st; cbn [loop_items]; [reflexivity|]. pose proof (HN st i (i =? 0) (match l with [] => true | _ => false end) v) as E.
      destruct (M i (i =? 0) _ v (None, st)) as [[[o st1] fl]| |]; cbn [obnd]; try exact I. cbn in E. subst o. destruct fl; cbn [obnd]; try reflexivity; apply IH. }
    induction l as [|v l IH]; intros i s st M0; cbn [loop_items]; [split; [reflexivity|apply mono_refl]|].
    pose proof (H st M0 i (i =? 0) (match l with [] => true | _ => false end) v s) as E.
    destruct (M i (i =? 0) _ v (Some s, st)) as [[[o st1] fl]| |]; cbn [obnd]; [|cbn in E; rewrite E; reflexivity|exact I]. cbn in E. destruct o as [s'|].
    - destruct E as [-> M1]. cbn [obnd]. assert (M2 : mono st0 st1) by (eapply mono_trans; eassumption).
      destruct fl; try (split; [reflexivity|exact M1]); (eapply Step_mono; [exact M1|]; apply IH; exact M2).
    - rewrite E. cbn [obnd]. apply lost_step; [|reflexivity]. destruct fl; try reflexivity; apply HL.
  Qed.
  Lemma for_sim m b c it r how t cnd flt m1 p m2 body c1 m3 b3 c1' m4 els c2 m5 b5 c2' m6 tail c3 m7 b7 c3' m8 has_else :
    visit_expr_root inp (ch_push m) it = Ok r -> flushed inp (ch_push m) b c ->
    match cnd with
    | None => flt = None /\ m1 = ch_push m
    | Some e => exists p0 mc e', visit_target (ch_push (ch_push m)) true t = Ok (p0, mc) /\ visit_expr_root inp mc e = Ok e' /\
                                 ch_pop mc = Ok m1 /\ flt = Some (p0, e')
    end ->
    visit_target (ch_push m1) true t = Ok (p, m2) -> PList m2 [] body c1 m3 b3 -> flushed inp m3 b3 c1' -> ch_pop m3 = Ok m4 ->
    PList (ch_push m4) [] els c2 m5 b5 -> flushed inp m5 b5 c2' -> ch_pop m5 = Ok m6 ->
    PList m6 [] tail c3 m7 b7 -> flushed inp m7 b7 c3' -> ch_pop m7 = Ok m8 -> (has_else = false -> els = [] /\ c2 ++ c2' = []) ->
    PNode m b (TFor t it cnd body els tail) (c ++ [SLoop has_else r how flt p (c1 ++ c1') (c2 ++ c2') (c3 ++ c3')]) m8 [].
  Proof.
    intros V Fl HC VT L1 F1 P1 L2 F2 P2 L3 F3 P3 HEl.
    assert (m1 = ch_push m) as ->.
    { destruct cnd as [e|]; [|tauto]. destruct HC as (p0 & mc & e' & V1 & _ & PO & _). eapply pop_grows; [|exact PO]. apply grows_target in V1. tauto. }
    assert (m4 = ch_push m) as ->.
    { eapply pop_grows; [|exact P1]. eapply grows_trans; [apply grows_target in VT; apply VT|exact (proj1 L1)]. }
    assert (m6 = ch_push m) as -> by (eapply pop_grows; [exact (proj1 L2)|exact P2]).
    assert (m8 = m) as -> by (eapply pop_grows; [exact (proj1 L3)|exact P3]).
    split; [apply grows_refl|]. split; [apply keeps_refl|]. split; [intros A1 A2 F G G' _; discriminate|].
    intros A1 A2 F lp G G' HS. cbn [scoped_node] in HS. destruct (_ && _) eqn:HA; [|discriminate HS]. injection HS as <-.
    apply andb_prop in HA as [HA HS3]. apply andb_prop in HA as [HA HS2]. apply andb_prop in HA as [HA HS1]. apply andb_prop in HA as [HA HCn].
    apply andb_prop in HA as [HA HLo]. apply andb_prop in HA as [HE HT]. rewrite minus_id in HS2, HS3 by (intros x []).
    assert (NL : ~ In (lit "loop") A1) by (intros H; apply mem_str_In in H; rewrite H in HLo; discriminate HLo). clear HLo.
    eapply Sim_chain; [apply ch_get_push|].
    cut (Sim A1 A2 F lp G G (ch_push m) (ch_push m) b [] (mean w inp lp (TFor t it cnd body els tail)) (c ++ [SLoop has_else r how flt p (c1 ++ c1') (c2 ++ c2') (c3 ++ c3')]) [] false).
    { intros H te re st p0 R P. specialize (H te re st p0 R P). destruct (mean w inp lp _ te st) as [[[[o te'] st'] fl]| |]; [|exact H|exact H].
      destruct H as [H|(s & re' & X & M & E & OO & D)]; [left; exact H|right]. exists s, re'. split; [exact X|]. split; [exact M|]. split; [exact E|]. split; [exact OO|].
      destruct fl; try exact D. destruct D as (p' & D1 & D2 & D3). exists p'. split; [exact D1|]. split; [eapply Rel_chain; [|exact D2]; intros; symmetry; apply ch_get_push|].
      rewrite (PInv_nil_inv w inp _ _ _ _ _ _ D3). apply PInv_nil. }
    apply Sim_flush; [exact Fl|]. apply Ctl_body. intros te re st R. cbn [mean exec].
    pose proof (rel_root w inp A1 A2 F G (ch_push m) te re st lp R wok it r HE V) as ER. destruct (teval w inp te st lp Unset it) as [v| |]; [|rewrite ER by discriminate; reflexivity|exact I].
    rewrite ER by discriminate. cbn [obnd]. destruct (of_opt (w_iter w v)) as [items| |]; cbn [obnd]; [|reflexivity|exact I].
    assert (KE : forall v, ref_keep w inp te st lp t cnd v <> Unset -> keep_item w re st flt v = ref_keep w inp te st lp t cnd v).
    { intros v0 HU. destruct cnd as [e|]; [|destruct HC as [-> _]; reflexivity]. destruct HC as (p0 & mc & e' & V1 & V2 & _ & ->). cbn [ref_keep keep_item] in *.
      assert (Rp : Rel A1 A2 F G (ch_push (ch_push m)) te re st lp) by (eapply Rel_chain; [intros; apply ch_get_push|exact R]).
      pose proof (bind_test A1 A2 F G _ mc te re st lp t p0 v0 Rp HT V1) as BT. destruct (pmatch w t v0) as [bs|]; [|rewrite BT; reflexivity].
      destruct BT as [-> BT]. cbn [of_opt obnd] in *. rewrite (rel_root w inp A1 A2 _ _ mc _ _ st lp BT wok e e' HCn V2 (obnd_Unset _ _ HU)). reflexivity. }
    pose proof (filter_same _ _ items KE) as FE. clear KE. destruct (filter_items w (ref_keep w inp te st lp t cnd) items) as [its| |]; [|rewrite FE by discriminate; reflexivity|exact I].
    rewrite FE by discriminate. cbn [obnd]. clear FE items ER v.
    match goal with |- Ctl (let^ _ := loop_items w ?M 0 its _ in _) _ te re st => set (Mf := M) end.
    set (Xf := fun (i : N) (first last : bool) (v : Sem.V w) (t : str * store w) =>
                 let^ bs := of_opt (pmatch w p v) in
                 let^ (o, _, st, fl) := exec_list w (exec w) (c1 ++ c1') ((lit "_loop_item", Val w (w_item w i first last)) :: bind_vals w bs re) (snd t) in
                 Done ((fst t ++ o, st), fl)).
    rewrite (loop_flag Xf).
    2:{ intros i f la v [s st0] bb. unfold Xf. cbn [fst snd]. destruct (of_opt (pmatch w p v)) as [bs| |]; cbn [obnd]; try reflexivity.
        destruct (exec_list w _ _ _ st0) as [[[[o re1] st2] fl]| |]; reflexivity. }
    assert (LS : Step (loop_items w Mf 0 its (Some [], st)) (loop_items w Xf 0 its ([], st)) st).
    { apply loop_same with (st0 := st); [| |apply mono_refl].
      - intros st' Mst i f la v s. unfold Mf, Xf. cbn [fst snd].
        assert (Rs : Rel A1 A2 F G (ch_push (ch_push m)) te re st' lp) by (eapply Rel_store; [exact Mst|]; eapply Rel_chain; [intros; apply ch_get_push|exact R]).
        pose proof (bind_test A1 A2 F G _ m2 te re st' lp t p v Rs HT VT) as BT.
        destruct (pmatch w t v) as [bs|]; cbn [of_opt obnd]; [|rewrite BT; reflexivity]. destruct BT as [-> BT]. cbn [of_opt obnd].
        apply (Rel_loop w _ _ _ _ _ _ _ _ _ i f la NL) in BT. destruct (PList_body A1 A2 _ (Some (i, f, la)) _ m2 body c1 c1' m3 b3 L1 F1 HS1) as [G2 BD].
        specialize (BD _ _ _ BT). destruct (mean_list w (mean w inp (Some (i, f, la))) body (bind_vals w bs te) st') as [[[[o te1] st1] fl]| |]; cbn [obnd].
        + destruct o as [s'|]; cbn [tapp]; [|rewrite BD; reflexivity]. destruct BD as (re1 & X & M & _). rewrite X. cbn [obnd]. split; [reflexivity|exact M].
        + rewrite BD. reflexivity.
        + exact I.
      - intros st' i f la v. unfold Mf. cbn [fst snd]. destruct (of_opt (pmatch w t v)) as [bs| |]; cbn [obnd]; try exact I.
        destruct (mean_list w _ body _ st') as [[[[o te1] st2] fl]| |]; cbn [obnd tapp]; try exact I. reflexivity. }
    destruct (loop_items w Mf 0 its (Some [], st)) as [[[o st1] fl0]| |]; cbn [obnd]; [|cbn in LS; rewrite LS; reflexivity|exact I]. cbn in LS.
    destruct (PList_body A1 A2 F lp G _ els c2 c2' m5 b5 L2 F2 HS2) as [G2 BD2]. destruct (PList_body A1 A2 F lp G _ tail c3 c3' m7 b7 L3 F3 HS3) as [G3 BD3].
    destruct o as [s|].
    - destruct LS as [-> M1]. cbn [obnd]. assert (R1 : Rel A1 A2 F G (ch_push m) te re st1 lp) by (eapply Rel_store; eassumption).
      assert (EI : (if has_else && negb (false || some_item its) then exec_list w (exec w) (c2 ++ c2') re st1 else Done ([], re, st1, Next))
                   = match its with [] => exec_list w (exec w) (c2 ++ c2') re st1 | _ => Done ([], re, st1, Next) end).
      { destruct its; cbn [some_item orb negb]; rewrite ?andb_false_r, ?andb_true_r; [|reflexivity]. destruct has_else; [reflexivity|].
        destruct (HEl eq_refl) as [_ ->]. reflexivity. }
      rewrite EI. clear EI.
      assert (E2 : match (match its with [] => mean_list w (mean w inp lp) els te st1 | _ => Done (Some [], te, st1, Next) end) with
        | Unset => True | Fails => (match its with [] => exec_list w (exec w) (c2 ++ c2') re st1 | _ => Done ([], re, st1, Next) end) = Fails
        | Done (o, te', st', fl) => match o with None => (match its with [] => exec_list w (exec w) (c2 ++ c2') re st1 | _ => Done ([], re, st1, Next) end) = Fails
             | Some s1 => exists re', (match its with [] => exec_list w (exec w) (c2 ++ c2') re st1 | _ => Done ([], re, st1, Next) end) = Done (s1, re', st', fl) /\ mono st1 st' end end).
      { destruct its; [|exists re; split; [reflexivity|apply mono_refl]].
        assert (R2 : Rel A1 A2 F G (ch_push (ch_push m)) te re st1 lp) by (eapply Rel_chain; [intros; apply ch_get_push|exact R1]).
        specialize (BD2 te re st1 R2). destruct (mean_list w (mean w inp lp) els te st1) as [[[[o te1] st2] fl]| |]; [|exact BD2|exact I].
        destruct o; [|exact BD2]. destruct BD2 as (re' & X & M & _). eauto. }
      destruct (match its with [] => mean_list w (mean w inp lp) els te st1 | _ => Done (Some [], te, st1, Next) end) as [[[[o1 te1] st2] fl1]| |]; cbn [obnd]; [|rewrite E2; reflexivity|exact I].
      destruct o1 as [s1|].
      + destruct E2 as (re' & -> & M2). cbn [obnd]. destruct fl1; try (cbn; split; [reflexivity|]; split; [eapply mono_trans; eassumption|reflexivity]).
        assert (R3 : Rel A1 A2 F G (ch_push m) te re st2 lp) by (eapply Rel_store; eassumption). specialize (BD3 te re st2 R3).
        destruct (mean_list w (mean w inp lp) tail te st2) as [[[[o2 te2] st3] fl2]| |]; cbn [obnd]; [|rewrite BD3; reflexivity|exact I].
        destruct o2 as [s2|]; [|rewrite BD3; reflexivity]. destruct BD3 as (re2 & -> & M3 & _). cbn. split; [reflexivity|]. split; [|reflexivity].
        eapply mono_trans; [exact M1|]. eapply mono_trans; eassumption.
      + rewrite E2. cbn [obnd]. destruct fl1; try reflexivity. destruct (mean_list w (mean w inp lp) tail te st2) as [[[[o2 te2] st3] fl2]| |]; cbn; try reflexivity; exact I.
    - rewrite LS. cbn [obnd]. destruct (match its with [] => mean_list w (mean w inp lp) els te st1 | _ => Done (Some [], te, st1, Next) end) as [[[[o1 te1] st2] fl1]| |]; cbn [obnd]; [|reflexivity|exact I].
      destruct fl1; try reflexivity. destruct (mean_list w (mean w inp lp) tail te st2) as [[[[o2 te2] st3] fl2]| |]; cbn; try reflexivity; exact I.
  Qed.
End Ctl.
