(** * Facts behind Prop_Lend.v: arguments are lent. *)
From Verif Require Import Base Ws Ast Ident IdentFacts GenExpr Heritage Gen HeritageSpec HeritageFacts TreeSpec ParseSpec RexprFacts SimExpr
  PanicTop FlatFacts EndFacts TplFacts GroupFacts LendSpec.
From Verif Require GroupGen ExprGen.
Local Open Scope N_scope.

(** No argument is written [*e]. *)
Definition args_of (e : expr) : list expr := match e with Filter _ l | Call _ l => l | _ => [] end.
Definition unstarred (l : list expr) : Prop := forall e, ~ In (Unary (lit "*") e) l.
Definition lending (ns : list node) : Prop :=
  forall b n, occurs ns b n ->
    (forall e e', expr_of n e -> sub e' e -> unstarred (args_of e')) /\
    match n with NFilterBlock _ _ args _ _ => unstarred args | _ => True end.
Definition lends (e : expr) : Prop := forall e', sub e' e -> unstarred (args_of e').
Lemma lends_kids e : lends e -> Forall lends (kids e).
Proof. intros H. apply Forall_forall. intros k Hk e' S. apply H. eapply sub_kid; eassumption. Qed.
Lemma lends_intro e : unstarred (args_of e) -> Forall lends (kids e) -> lends e.
Proof. intros H1 H2 e' S. inversion S; subst; [exact H1|]. rewrite Forall_forall in H2. eapply H2; eassumption. Qed.

Definition aok (a : bool * bool * rexpr) : Prop := (fst (fst a) = true \/ place (snd a) = false) /\ lent (snd a).
Lemma lent_intro r : Forall aok (arguments r) -> Forall lent (parts r) -> lent r.
Proof.
  intros H1 H2 q P. inversion P; subst.
  - intros b c a Ha. rewrite Forall_forall in H1. exact (proj1 (H1 _ Ha)).
  - rewrite Forall_forall in H2. eapply H2; eassumption.
Qed.
Lemma aok_parts l : Forall aok l -> Forall lent (map snd l).
Proof. induction 1 as [|a l [_ H] _ IH]; cbn [map]; constructor; assumption. Qed.
Lemma lent_field r x : lent r -> lent (RField r x).
Proof. intros H. apply lent_intro; cbn; auto. Qed.
Lemma lent_name x : lent (RName x).
Proof. apply lent_intro; constructor. Qed.
Lemma lent_resolve m x r : chain_all lent m -> ch_resolve m x = Some r -> lent r.
Proof.
  intros Hm. unfold ch_resolve. destruct (ch_get m (normalize_identifier x)) as [v|] eqn:E; [|discriminate]. intros [= <-].
  destruct (l_refs v) as [r|] eqn:R; [exact (ch_get_all _ _ _ _ Hm E _ R)|apply lent_name].
Qed.
Lemma lent_self m x : chain_all lent m -> lent (ch_resolve_or_self m x).
Proof. intros Hm. unfold ch_resolve_or_self. destruct (ch_resolve m x) eqn:E; [eapply lent_resolve; eassumption|]. apply lent_field, lent_name. Qed.
Lemma lent_markup esc r : lent r -> lent (RMarkup esc r).
Proof. intros H. apply lent_intro; cbn; auto. Qed.

Ltac lent_closed := repeat match goal with
  | |- lent _ => apply lent_intro; cbn [arguments parts app map loop_item self]
  | |- Forall _ [] => constructor
  | |- Forall _ (_ :: _) => constructor end.
Section Visit.
  Variables (inp : ginput) (m : chain).
  Hypothesis Hm : chain_all lent m.
  Definition vok (e : expr) : Prop := lends e -> forall r wr, visit_expr inp m e = Ok (r, wr) -> lent r.
  Lemma copied e r wr : is_copyable e = true -> (forall x, e <> Unary (lit "*") x) -> visit_expr inp m e = Ok (r, wr) -> place r = false.
  Proof.
    intros C U E. destruct e; try discriminate C; try (cbn [visit_expr] in E; inv_ok E; reflexivity).
    - change (v_plain (let! r := v_sub inp m e in Ok (RUn op r)) = Ok (r, wr)) in E. inv_ok E. cbn [place].
      destruct (str_eqb op (lit "*")) eqn:EO; [|reflexivity]. apply str_eqb_eq in EO. subst op. now elim (U e).
    - change (v_plain (let! a := v_sub inp m e1 in let! b := v_sub inp m e2 in Ok (RBin op a b)) = Ok (r, wr)) in E. inv_ok E. reflexivity.
    - change (v_plain (let! a := v_opt inp m l in let! b := v_opt inp m r0 in Ok (RRange op a b)) = Ok (r, wr)) in E. inv_ok E. reflexivity.
    - assert (D : v_plain (let! r := v_sub inp m e in let! rs := v_args inp m args in Ok (RCall r rs)) = Ok (r, wr) -> place r = false) by (intros E1; inv_ok E1; reflexivity).
      rewrite visit_call in E. destruct e; try (apply D; exact E).
      + cbv zeta in E. inv_ok E. reflexivity.
      + destruct e; try (apply D; exact E). destruct (str_eqb s (lit "loop")); [|apply D; exact E]. destruct (str_eqb name (lit "cycle")); [|discriminate E].
        destruct args as [|x [|]]; try discriminate E; [|destruct x as [| | | | | |[|]| | | | | | | | | | | | |]; discriminate E].
        destruct x as [| | | | | |[|]| | | | | | | | | | | | |]; try discriminate E; inv_ok E; reflexivity.
  Qed.
  Lemma vok_sub e r : vok e -> lends e -> v_sub inp m e = Ok r -> lent r.
  Proof. intros H F E. unfold v_sub in E. inv_ok E. eapply H; eassumption. Qed.
  Lemma vok_subs l : Forall vok l -> Forall lends l -> forall rs, v_subs inp m l = Ok rs -> Forall lent rs.
  Proof.
    induction 1 as [|e l He _ IH]; intros F rs E; cbn [v_subs] in E; inv_ok E; [constructor|]. inversion F; subst. constructor; [|apply IH; assumption].
    eapply vok_sub; eassumption.
  Qed.
  Lemma vok_arg e a : vok e -> lends e -> (forall x, e <> Unary (lit "*") x) -> v_arg inp m e = Ok a -> aok a.
  Proof.
    intros H F U E. unfold v_arg in E. inv_ok E. split; cbn [fst snd]; [|eapply vok_sub; eassumption].
    destruct (is_copyable e) eqn:C; [right|left; reflexivity]. match goal with V : v_sub inp m e = Ok _ |- _ => unfold v_sub in V; inv_ok V end. eapply copied; eassumption.
  Qed.
  Lemma vok_args l : Forall vok l -> Forall lends l -> unstarred l -> forall rs, v_args inp m l = Ok rs -> Forall aok rs.
  Proof.
    induction 1 as [|e l He _ IH]; intros F U rs E; cbn [v_args] in E; inv_ok E; [constructor|]. inversion F; subst. constructor.
    - eapply vok_arg; try eassumption. intros x ->. apply (U x). left. reflexivity.
    - apply IH; [assumption| |assumption]. intros x Hx. apply (U x). right. exact Hx.
  Qed.
  Lemma vok_opt (o : option expr) r : (forall e, o = Some e -> vok e /\ lends e) -> v_opt inp m o = Ok r -> Forall lent (match r with Some x => [x] | None => [] end).
  Proof.
    intros H E. destruct o as [e|]; cbn [v_opt] in E; inv_ok E; [|constructor]. destruct (H e eq_refl) as [H1 H2]. constructor; [|constructor]. eapply vok_sub; eassumption.
  Qed.
  Ltac sub_ok := match goal with V : v_sub inp m ?e = Ok ?r |- lent ?r => apply (vok_sub e r); assumption end.
  Lemma visit_lent e : vok e.
  Proof.
    induction e using expr_ind'; unfold vok; intros F r0 wr E; pose proof (lends_kids _ F) as FK; pose proof (F _ (sub_refl _)) as U; cbn [kids args_of] in FK, U;
      try (cbn [visit_expr] in E; inv_ok E; apply lent_intro; constructor).
    - cbn [visit_expr] in E. inv_ok E. unfold visit_var. destruct (str_eqb s (lit "self")); [apply lent_name|]. pose proof (lent_self m s Hm) as K.
      unfold normalize_text. destruct (ch_resolve_or_self m s); try exact K. apply lent_name.
    - rewrite visit_arr in E. inv_ok E. apply lent_intro; [constructor|]. eapply vok_subs; eassumption.
    - cbn [visit_expr] in E. destruct (var_loop e).
      + change (v_plain (loop_attr x) = Ok (r0, wr)) in E. inv_ok E. unfold loop_attr in E.
        repeat match type of E with (if ?b then _ else _) = _ => destruct b end; inv_ok E; try discriminate E; lent_closed.
      + change (v_plain (let! r := v_sub inp m e in Ok (RField r (normalize_identifier x))) = Ok (r0, wr)) in E. inv_ok E. inversion FK; subst.
        apply lent_field. sub_ok.
    - change (v_plain (let! r := v_sub inp m e1 in let! k := v_sub inp m e2 in Ok (RRef (RIndex r k))) = Ok (r0, wr)) in E. inv_ok E.
      inversion FK as [|? ? K1 K]; subst. inversion K as [|? ? K2 _]; subst.
      apply lent_intro; [constructor|]. constructor; [|constructor]. apply lent_intro; [constructor|]. repeat apply Forall_cons; [| |apply Forall_nil]; sub_ok.
    - pose proof (vok_args l H FK U) as QA. pose proof (vok_subs l H FK) as QS.
      assert (HD : forall a, In a l -> forall x, v_arg inp m a = Ok x -> aok x).
      { intros a Ha x Hx. rewrite Forall_forall in *. eapply vok_arg; [apply H, Ha|apply FK, Ha| |exact Hx]. intros y ->. exact (U y Ha). }
      assert (HS : forall a, In a l -> forall x, v_sub inp m a = Ok x -> lent x).
      { intros a Ha x Hx. rewrite Forall_forall in *. eapply vok_sub; [apply H, Ha|apply FK, Ha|exact Hx]. }
      assert (ONE : forall F, (forall x, arguments (F x) = [x]) -> (forall x, parts (F x) = [snd x]) -> forall a x, In a l -> v_arg inp m a = Ok x -> lent (F x)).
      { intros G G1 G2 a x Ha Hx. pose proof (HD a Ha x Hx) as K. apply lent_intro; [rewrite G1; constructor; [exact K|constructor]|rewrite G2; constructor; [apply K|constructor]]. }
      rewrite visit_filter in E.
      destruct (str_eqb n (lit "as_ref")).
      { destruct l as [|a [|]]; try discriminate E. inv_ok E. apply lent_intro; [constructor|]. constructor; [|constructor]. eapply HS; [left; reflexivity|eassumption]. }
      destruct (str_eqb n (lit "deref")).
      { destruct l as [|a [|]]; try discriminate E. inv_ok E. apply lent_intro; [constructor|]. constructor; [|constructor]. eapply HS; [left; reflexivity|eassumption]. }
      destruct (str_eqb n (lit "escape") || str_eqb n (lit "e")).
      { destruct l as [|a [|b [|c l]]]; try discriminate E; [|destruct b; try discriminate E|destruct b; discriminate E]; inv_ok E; eapply (ONE (REscape _)); try reflexivity; try eassumption; left; reflexivity. }
      destruct (str_eqb n (lit "fmt")).
      { destruct l as [|a [|b [|c l]]]; try discriminate E; destruct b; try discriminate E. inv_ok E. eapply (ONE (fun x => RFormat _ [x])); try reflexivity; try eassumption; left; reflexivity. }
      destruct (str_eqb n (lit "format")).
      { destruct l as [|a l]; try discriminate E; destruct a; try discriminate E. inv_ok E. inversion H; subst. inversion FK; subst.
        assert (K : Forall aok a) by (eapply vok_args; [eassumption|eassumption| |eassumption]; intros x Hx; apply (U x); right; exact Hx).
        apply lent_intro; [exact K|apply aok_parts, K]. }
      destruct (str_eqb n (lit "join")).
      { inv_ok E. pose proof (QS _ E0) as K. apply lent_intro; [constructor|]. cbn [parts]. clear - K. induction K as [|x l K _ IH]; cbn [map]; constructor; [|exact IH]. apply lent_intro; [constructor|constructor; [exact K|constructor]]. }
      destruct (str_eqb n (lit "json") || str_eqb n (lit "tojson")).
      { destruct (negb _); [discriminate E|]; destruct l as [|a [|]]; try discriminate E; inv_ok E. eapply (ONE (fun x => RFilter _ _ [x])); try reflexivity; try eassumption; left; reflexivity. }
      destruct (str_eqb n (lit "safe")).
      { destruct l as [|a [|]]; try discriminate E; inv_ok E. eapply (ONE (RSafe _)); try reflexivity; try eassumption; left; reflexivity. }
      inv_ok E. pose proof (QA _ E0) as K. apply lent_intro; [exact K|apply aok_parts, K].
    - change (v_plain (v_sub inp m e) = Ok (r0, wr)) in E. inv_ok E. inversion FK; subst. sub_ok.
    - change (v_plain (let! r := v_sub inp m e in Ok (RUn o r)) = Ok (r0, wr)) in E. inv_ok E. inversion FK; subst. apply lent_intro; [constructor|]. constructor; [|constructor]. sub_ok.
    - change (v_plain (let! a := v_sub inp m e1 in let! b := v_sub inp m e2 in Ok (RBin o a b)) = Ok (r0, wr)) in E. inv_ok E.
      inversion FK as [|? ? K1 K]; subst. inversion K as [|? ? K2 _]; subst. apply lent_intro; [constructor|]. repeat apply Forall_cons; [| |apply Forall_nil]; sub_ok.
    - change (v_plain (let! a := v_opt inp m l in let! b := v_opt inp m r in Ok (RRange o a b)) = Ok (r0, wr)) in E. inv_ok E. rewrite Forall_app in FK. destruct FK as [FL FR].
      apply lent_intro; [constructor|]. cbn [parts]. apply Forall_app. split; (eapply vok_opt; [|eassumption]); intros e ->; (split; [assumption|]); [inversion FL|inversion FR]; assumption.
    - change (v_plain (let! r := v_sub inp m e in Ok (RGrp r)) = Ok (r0, wr)) in E. inv_ok E. inversion FK; subst. apply lent_intro; [constructor|]. constructor; [|constructor]. sub_ok.
    - rewrite visit_tuple in E. inv_ok E. apply lent_intro; [constructor|]. eapply vok_subs; eassumption.
    - inversion FK as [|? ? K1 K2]; subst. pose proof (vok_args l H K2 U) as QA.
      assert (C : forall f rs, lent f -> v_args inp m l = Ok rs -> lent (RCall f rs)).
      { intros f rs Hf Hr. pose proof (QA _ Hr) as K. apply lent_intro; [exact K|]. constructor; [exact Hf|apply aok_parts, K]. }
      assert (D : v_plain (let! r := v_sub inp m e in let! rs := v_args inp m l in Ok (RCall r rs)) = Ok (r0, wr) -> lent r0).
      { intros E1. inv_ok E1. apply C; [sub_ok|assumption]. }
      rewrite visit_call in E. destruct e; try (apply D; exact E).
      + cbv zeta in E. inv_ok E. apply C; [|assumption]. destruct (ch_resolve m s) as [c|] eqn:CC; [eapply lent_resolve; eassumption|].
        lent_closed.
      + destruct e; try (apply D; exact E). destruct (str_eqb s (lit "loop")); [|apply D; exact E].
        destruct (str_eqb name (lit "cycle")); [|discriminate E].
        assert (CY : forall x, l = [x] -> v_plain (let! r := v_sub inp m x in Ok (RCycle r)) = Ok (r0, wr) -> lent r0).
        { intros x -> Ex. inv_ok Ex. inversion H; subst. inversion K2; subst. apply lent_intro; [constructor|]. constructor; [|constructor]. sub_ok. }
        destruct l as [|x [|]]; try discriminate E; [|destruct x as [| | | | | |[|]| | | | | | | | | | | | |]; discriminate E].
        destruct x as [| | | | | |[|]| | | | | | | | | | | | |]; try discriminate E; apply (CY _ eq_refl E).
    - change (v_plain (let! r := v_sub inp m e in Ok (RTry r)) = Ok (r0, wr)) in E. inv_ok E. inversion FK; subst. apply lent_intro; [constructor|]. constructor; [|constructor]. sub_ok.
  Qed.
End Visit.

(** ** Templates *)
Lemma lends_insert x e : forall n l, e = Filter n l -> unstarred l -> Forall lends l -> lends (insert_in_filter x e).
Proof.
  assert (GX : lends (Generated x)) by (apply lends_intro; [intros y []|constructor]).
  induction e using expr_ind'; intros n0 l0 EQ U L; try discriminate EQ. injection EQ as <- <-. cbn [insert_in_filter]. destruct l as [|a l].
  - apply lends_intro; cbn; [intros y [Q|[]]; discriminate Q|]. constructor; [exact GX|constructor].
  - assert (OTHER : lends (Filter n (Generated x :: a :: l))).
    { apply lends_intro; cbn [args_of kids]; [intros y [Q|Q]; [discriminate Q|exact (U y Q)]|]. constructor; assumption. }
    destruct a; try exact OTHER. inversion H; subst. inversion L; subst. apply lends_intro.
    + cbn [args_of]. intros y [Q|Q]; [destruct args as [|[] ?]; discriminate Q|]. apply (U y). right. exact Q.
    + constructor; [|assumption]. match goal with K : lends (Filter name args) |- _ => pose proof (lends_kids _ K) as LK; pose proof (K _ (sub_refl _)) as LU end.
      match goal with K : forall n l, Filter name args = Filter n l -> _ |- _ => exact (K name args eq_refl LU LK) end.
Qed.
Lemma own_lending n : (forall e e', expr_of n e -> sub e' e -> unstarred (args_of e')) -> (match n with NFilterBlock _ _ args _ _ => unstarred args | _ => True end) ->
  ExprGen.own lends n.
Proof.
  intros P U. assert (D : forall e, expr_of n e -> lends e) by (intros e O e' S; eapply P; eassumption).
  destruct n; cbn [ExprGen.own]; auto.
  - apply D. constructor.
  - apply Forall_forall. intros a Ha. destruct a; try (apply D; constructor; [exact Ha|discriminate]). apply lends_intro; [intros y []|]. constructor; [|constructor]. apply D. eapply eo_named. exact Ha.
  - destruct val as [e|]; [|exact I]. apply D. constructor.
  - intros w' t b Hc. apply D. econstructor. exact Hc.
  - apply D. constructor.
  - split; [apply D; constructor|]. intros e ->. apply D. constructor.
  - intros x. eapply lends_insert; [reflexivity|exact U|]. apply Forall_forall. intros a Ha. apply D. constructor. exact Ha.
Qed.
Lemma good_lending ns : lending ns -> Forall (ExprGen.good lends) ns.
Proof.
  intros P. apply Forall_forall. intros n Hn b b' m I. destruct (GroupGen.inside_any _ _ _ _ I false) as [b1 I']. assert (O : occurs ns b1 m) by (exists n; auto).
  destruct (P _ _ O) as [P1 P2]. apply own_lending; assumption.
Qed.
Lemma build_lent inp find fuel templates code z : (forall p ns, In (p, ns) templates -> lending ns) ->
  build_template inp find fuel templates = GOk (code, z) -> Forall lent (all_values code).
Proof.
  intros HT. apply (ExprGen.build_any lent lends).
  - intros m e r w Hm He E. eapply visit_lent; eassumption.
  - exact lent_markup.
  - intros m x Hm. apply lent_self, Hm.
  - intros m x r Hm E. eapply lent_resolve; eassumption.
  - intros op l r H. apply lends_kids in H. inversion H as [|? ? K1 K]; subst. inversion K; subst. auto.
  - intros p ns Hin. apply good_lending. eapply HT; exact Hin.
Qed.
Lemma lending_wf ns : Forall (wf_node false) ns -> lending ns.
Proof.
  intros W b n O. pose proof (occurs_wf ns b n W O) as WN.
  assert (F : forall e e' x, expr_of n e -> sub e' e -> e' <> Unary (lit "*") x).
  { intros e e' x HE HS ->. destruct (wf_node_expr _ _ _ _ WN HE HS) as [_ [[H|[H|[]]] _]]; discriminate H. }
  split.
  - intros e e' HE HS x Hx. apply (F e (Unary (lit "*") x) x HE); [|reflexivity]. assert (K : In (Unary (lit "*") x) (kids e')) by (destruct e'; try contradiction Hx; [exact Hx|right; exact Hx]).
    clear - HS K. induction HS as [e|e k e' H _ IH]; [eapply sub_kid; [exact K|constructor]|eapply sub_kid; [exact H|apply IH, K]].
  - destruct n; auto. intros x Hx. apply (F (Unary (lit "*") x) (Unary (lit "*") x) x); [constructor; exact Hx|constructor|reflexivity].
Qed.
