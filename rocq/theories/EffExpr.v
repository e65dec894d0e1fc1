(** * Expressions with effects: the generated one does what the one of the template does. *)
From Coq Require Import ZArith ZifyBool ZifyNat ZifyN.
From Verif Require Import Base Ws Ast Ident IdentFacts GenExpr Heritage Gen Sem RefSem RexprFacts FlushFacts Scoped SimExpr SimFacts SimRel Effect EffectFacts EffSem EffRef Shipped.
Local Open Scope N_scope.

Section Meets.
  Variable T : Type.
  Notation ebnd := (ebnd T).
  Notation pure := (pure T).
  (** [b] does what [a] does, where something is said about [a]. *)
  Definition meets {A} (a b : eff T A) : Prop := forall t, fst (a t) <> Unset -> b t = a t.
  Lemma meets_refl {A} (a : eff T A) : meets a a.
  Proof. intros t _. reflexivity. Qed.
  Lemma meets_none {A} (b : eff T A) : meets (pure Unset) b.
  Proof. intros t H. exfalso. apply H. reflexivity. Qed.
  Lemma meets_pure {A} (o o' : out A) : (o <> Unset -> o' = o) -> meets (pure o) (pure o').
  Proof. intros H t Hn. unfold Effect.pure in *. cbn [fst] in Hn. rewrite (H Hn). reflexivity. Qed.
  Lemma meets_bnd {A B} (a a' : eff T A) (k k' : A -> eff T B) : meets a a' -> (forall v, meets (k v) (k' v)) -> meets (ebnd a k) (ebnd a' k').
  Proof.
    intros H1 H2 t Hn. unfold Effect.ebnd in *. rewrite (H1 t) by (destruct (a t) as [[v| |] t']; cbn in *; congruence).
    destruct (a t) as [[v| |] t']; [|reflexivity|reflexivity]. apply H2. exact Hn.
  Qed.
  Lemma meets_map {A B C} (f : A -> eff T C) (g : B -> eff T C) l l' : Forall2 (fun a b => meets (f a) (g b)) l l' -> meets (eff_map T f l) (eff_map T g l').
  Proof.
    induction 1 as [|a b l l' H _ IH]; [apply meets_refl|]. cbn [eff_map]. apply meets_bnd; [exact H|]. intros v. apply meets_bnd; [exact IH|]. intros vs. apply meets_refl.
  Qed.
  Lemma meets_bin w op l r l' r' : meets l l' -> meets r r' -> meets (eff_bin w T op l r) (eff_bin w T op l' r').
  Proof.
    intros L R. unfold eff_bin. destruct (str_eqb op (lit "&&")); [|destruct (str_eqb op (lit "||"))].
    - apply meets_bnd; [exact L|]. intros a. apply meets_bnd; [apply meets_refl|]. intros [|]; [|apply meets_refl]. apply meets_bnd; [exact R|]. intros b. apply meets_refl.
    - apply meets_bnd; [exact L|]. intros a. apply meets_bnd; [apply meets_refl|]. intros [|]; [apply meets_refl|]. apply meets_bnd; [exact R|]. intros b. apply meets_refl.
    - apply meets_bnd; [exact L|]. intros a. apply meets_bnd; [exact R|]. intros b. apply meets_refl.
  Qed.
  (** A computation without effects *)
  Definition is {A} (c : eff T A) (o : out A) : Prop := forall t, c t = (o, t).
  Lemma is_pure {A} (o : out A) : is (pure o) o.
  Proof. intros t. reflexivity. Qed.
  Lemma is_bnd {A B} (c : eff T A) o (k : A -> eff T B) k' : is c o -> (forall a, is (k a) (k' a)) -> is (ebnd c k) (obnd o k').
  Proof. intros H K t. unfold Effect.ebnd. rewrite H. destruct o; [apply K|reflexivity|reflexivity]. Qed.
  Lemma is_map {A B} (f : A -> eff T B) g l : Forall (fun a => is (f a) (g a)) l -> is (eff_map T f l) (out_map g l).
  Proof.
    induction 1 as [|a l H _ IH]; [apply is_pure|]. cbn [eff_map out_map]. apply is_bnd; [exact H|]. intros b. apply is_bnd; [exact IH|]. intros bs. apply is_pure.
  Qed.
  Lemma is_bin w op l r ol or : is l ol -> is r or -> is (eff_bin w T op l r) (lazy_bin w op ol or).
  Proof.
    intros L R. unfold eff_bin, lazy_bin. destruct (str_eqb op (lit "&&")); [|destruct (str_eqb op (lit "||"))].
    - apply is_bnd; [exact L|]. intros a. apply is_bnd; [apply is_pure|]. intros [|]; [|apply is_pure]. apply is_bnd; [exact R|]. intros b. apply is_bnd; [apply is_pure|]. intros. apply is_pure.
    - apply is_bnd; [exact L|]. intros a. apply is_bnd; [apply is_pure|]. intros [|]; [apply is_pure|]. apply is_bnd; [exact R|]. intros b. apply is_bnd; [apply is_pure|]. intros. apply is_pure.
    - apply is_bnd; [exact L|]. intros a. apply is_bnd; [exact R|]. intros. apply is_pure.
  Qed.
End Meets.

Lemma forallb_is {A} (q : A -> bool) (P : A -> Prop) l : Forall (fun a => q a = true -> P a) l -> forallb q l = true -> Forall P l.
Proof. induction 1 as [|a l H _ IH]; cbn; intros E; [constructor|]. apply andb_prop in E as [E1 E2]. constructor; auto. Qed.
(** Without calls, evaluation is that of Sem.v. *)
Lemma quiet_reval w T x re st r : quiet r = true -> is T (xeval w T x re st r) (reval w re st r).
Proof.
  assert (ARGS : forall l : list (bool * bool * rexpr), Forall (fun a => quiet (snd a) = true -> is T (xeval w T x re st (snd a)) (reval w re st (snd a))) l ->
    forallb (fun a : bool * bool * rexpr => match a with (_, _, e) => quiet e end) l = true ->
    is T (eff_map T (fun a : bool * bool * rexpr => match a with (_, _, e) => xeval w T x re st e end) l)
         (out_map (fun a : bool * bool * rexpr => match a with (_, _, e) => reval w re st e end) l)).
  { intros l H Q. apply is_map. eapply forallb_is in Q; [exact Q|]. eapply Forall_impl; [|exact H]. intros [[b c] e] K. exact K. }
  assert (LIST : forall l, Forall (fun r => quiet r = true -> is T (xeval w T x re st r) (reval w re st r)) l -> forallb quiet l = true ->
    is T (eff_map T (xeval w T x re st) l) (out_map (reval w re st) l)).
  { intros l H Q. apply is_map. eapply forallb_is in Q; [exact Q|exact H]. }
  induction r using rexpr_ind'; cbn [quiet xeval reval]; intros Q; try discriminate Q; try apply is_pure; try (apply IHr; exact Q).
  - apply is_bnd; [apply LIST; assumption|intros; apply is_pure].
  - apply is_bnd; [apply LIST; assumption|intros; apply is_pure].
  - apply is_bnd; [auto|intros; apply is_pure].
  - apply andb_prop in Q as [Q1 Q2]. apply is_bnd; [auto|]. intros. apply is_bnd; [auto|intros; apply is_pure].
  - apply is_bnd; [auto|intros; apply is_pure].
  - apply andb_prop in Q as [Q1 Q2]. apply is_bin; auto.
  - apply andb_prop in Q as [Q1 Q2].
    assert (O : forall o, POpt (fun r => quiet r = true -> is T (xeval w T x re st r) (reval w re st r)) o -> match o with Some e => quiet e | None => true end = true ->
      is T (match o with Some l => ebnd T (xeval w T x re st l) (fun v => pure T (Done (Some v))) | None => pure T (Done None) end)
           (match o with Some l => let^ v := reval w re st l in Done (Some v) | None => Done None end)).
    { intros [e|] H1 H2; [|apply is_pure]. apply is_bnd; [exact (H1 H2)|intros; apply is_pure]. }
    apply is_bnd; [apply O; assumption|]. intros. apply is_bnd; [apply O; assumption|intros; apply is_pure].
  - apply is_bnd; [auto|intros; apply is_pure].
  - apply andb_prop in Q as [-> Q]. apply is_bnd; [apply ARGS; assumption|intros; apply is_pure].
  - destruct a as [[b c] e]. apply is_bnd; [auto|intros; apply is_pure].
  - destruct a as [[b c] e]. apply is_bnd; [auto|intros; apply is_pure].
  - apply is_bnd; [apply ARGS; assumption|intros; apply is_pure].
  - apply is_bnd; [apply LIST; assumption|intros; apply is_pure].
  - apply is_bnd; [auto|intros; apply is_pure].
Qed.

Section Agree.
  Variables (w : world) (T : Type) (x : effects w T).
  Hypothesis wok : world_ok w.
  Variables (inp : ginput) (m : chain).
  Hypothesis Q : quiet_aliases m.
  Variables (te re : env w) (lp : lpos).
  Notation tev := (xteval w T x inp te lp).
  Notation rev_ := (xeval w T x re []).
  Notation meets := (meets T).
  Definition xagree (e : expr) : Prop := forall r wr, visit_expr inp m e = Ok (r, wr) -> meets (tev e) (rev_ r).
  Lemma xagree_sub e r : xagree e -> v_sub inp m e = Ok r -> meets (tev e) (rev_ r).
  Proof. intros H E. apply v_sub_Ok in E as [wr E]. eapply H; eassumption. Qed.
  Lemma xagree_subs l : Forall xagree l -> forall rs, v_subs inp m l = Ok rs -> meets (eff_map T tev l) (eff_map T rev_ rs).
  Proof.
    intros H rs E. apply meets_map. revert rs E. induction H as [|e l He Hl IH]; intros rs E; cbn [v_subs] in E; inv_ok E; [constructor|].
    constructor; [apply xagree_sub; assumption|apply IH; assumption].
  Qed.
  Notation xargs := (eff_map T (fun a : bool * bool * rexpr => match a with (_, _, e) => rev_ e end)).
  Lemma xagree_args l : Forall xagree l -> forall rs, v_args inp m l = Ok rs -> meets (eff_map T tev l) (xargs rs).
  Proof.
    intros H rs E. apply meets_map. revert rs E. induction H as [|e l He Hl IH]; intros rs E; cbn [v_args] in E; unfold v_arg in E; inv_ok E; [constructor|].
    inv_ok E0. constructor; [apply xagree_sub; assumption|apply IH; assumption].
  Qed.
  Lemma xrefs rs : Forall2 (fun a b => meets (rev_ a) (rev_ b)) rs (map RRef rs).
  Proof. induction rs as [|r rs IH]; constructor; [apply meets_refl|exact IH]. Qed.
  Lemma meets_trans {A} (a b c : eff T A) : meets a b -> meets b c -> meets a c.
  Proof. intros H1 H2 t Hn. rewrite (H2 t); [apply H1; exact Hn|]. rewrite (H1 t Hn). exact Hn. Qed.
  Ltac inv_args := repeat match goal with E : rbind (v_sub inp m _) _ = Ok _ |- _ => inv_ok E end.
  Ltac step e := apply meets_bnd; [apply xagree_sub; assumption|intros; apply meets_refl].
  Lemma xagree_filter name args : Forall xagree args -> xagree (Filter name args).
  Proof.
    intros HA r wr E. rewrite SimExpr.visit_filter in E. cbn [xteval].
    destruct (str_eqb name (lit "as_ref")) eqn:N1.
    { cbn [orb]. destruct args as [|a [|]]; try discriminate E. inversion HA; subst. inv_ok E. cbn [xeval]. apply xagree_sub; assumption. }
    destruct (str_eqb name (lit "deref")) eqn:N2.
    { cbn [orb]. destruct args as [|a [|]]; try discriminate E. inversion HA; subst. inv_ok E. cbn [xeval]. apply xagree_sub; assumption. }
    cbn [orb]. destruct (str_eqb name (lit "escape") || str_eqb name (lit "e")) eqn:N3.
    { destruct args as [|a [|b [|c l]]]; try discriminate E.
      - inversion HA; subst. unfold v_arg in E. inv_ok E. inv_args. cbn [xeval]. step a.
      - destruct b; try discriminate E. inversion HA; subst. unfold v_arg in E. inv_ok E. inv_args. rewrite (named_escaper_for _ _ _ E0). cbn [xeval]. step a.
      - destruct b; discriminate E. }
    destruct (str_eqb name (lit "fmt")) eqn:N4.
    { destruct args as [|a [|b [|c l]]]; try discriminate E; destruct b; try discriminate E. inversion HA; subst. unfold v_arg in E. inv_ok E. inv_args.
      cbn [xeval eff_map]. match goal with E : v_sub inp m a = Ok ?y, A : xagree a |- _ => pose proof (xagree_sub a y A E) as M end.
      intros t Hn. specialize (M t). unfold EffSem.bnd, EffSem.opt, ebnd, pure in *. destruct (tev a t) as [[v| |] t']; cbn in *; [rewrite M by discriminate; reflexivity|rewrite M by discriminate; reflexivity|congruence]. }
    destruct (str_eqb name (lit "format")) eqn:N5.
    { destruct args as [|a l]; try discriminate E; destruct a; try discriminate E. inversion HA; subst. inv_ok E.
      cbn [xeval]. apply meets_bnd; [apply xagree_args; assumption|]. intros vs. apply meets_refl. }
    destruct (str_eqb name (lit "join")) eqn:N6.
    { inv_ok E. cbn [xeval]. apply meets_bnd; [|intros; apply meets_refl]. eapply meets_trans; [apply xagree_subs; eassumption|]. apply meets_map, xrefs. }
    destruct (str_eqb name (lit "json") || str_eqb name (lit "tojson")) eqn:N7.
    { destruct (negb (f_json inp)); [discriminate E|]. destruct args as [|a [|]]; try discriminate E. inversion HA; subst. unfold v_arg in E. inv_ok E. inv_args.
      cbn [xeval eff_map]. match goal with E : v_sub inp m a = Ok ?y, A : xagree a |- _ => pose proof (xagree_sub a y A E) as M end.
      intros t Hn. specialize (M t). unfold EffSem.bnd, EffSem.opt, ebnd, pure in *. destruct (tev a t) as [[v| |] t']; cbn in *; [rewrite M by discriminate; reflexivity|rewrite M by discriminate; reflexivity|congruence]. }
    destruct (str_eqb name (lit "safe")) eqn:N8.
    { destruct args as [|a [|]]; try discriminate E. inversion HA; subst. unfold v_arg in E. inv_ok E. inv_args. cbn [xeval]. step a. }
    destruct (mem_str name shipped); inv_ok E; cbn [xeval]; (apply meets_bnd; [apply xagree_args; assumption|]; intros vs; apply meets_refl).
  Qed.

  Hypothesis Hlp : forall i f l, lp = Some (i, f, l) -> lookup w re (lit "_loop_item") = Some (Val w (w_item w i f l)).
  Lemma xagree_loop a r : loop_attr a = Ok r -> meets (pure T (loop_value w lp a)) (rev_ r).
  Proof.
    intros E t Hn. cbn [fst pure] in Hn.
    assert (QR : quiet r = true).
    { unfold loop_attr in E. repeat match type of E with (if ?c then _ else _) = _ => destruct c end; try discriminate E; injection E as <-; reflexivity. }
    rewrite (quiet_reval w T x re [] r QR t). unfold pure. f_equal. apply (agree_loop w wok re [] lp Hlp); assumption.
  Qed.
  Lemma xeval_call f l : is_rfield f = false -> rev_ (RCall f l) = ebnd T (rev_ f) (fun v => ebnd T (xargs l) (fun vs => of_act T (x_call w T x v vs))).
  Proof. destruct f; intros H; try reflexivity. discriminate H. Qed.
  Lemma xvar s : var_agree w m te re [] s -> meets (pure T (var_value w te [] s)) (rev_ (visit_var m s)).
  Proof.
    intros H t Hn. cbn [fst pure] in Hn. rewrite (quiet_reval w T x re [] _ (quiet_var m Q s) t). unfold pure. f_equal. apply H. exact Hn.
  Qed.
  Lemma xcallee s : call_agree w m te re [] s -> meets (pure T (var_value w te [] s)) (rev_ (callee m s)).
  Proof.
    intros [_ H] t Hn. cbn [fst pure] in Hn.
    assert (QR : quiet (callee m s) = true).
    { unfold callee, ch_resolve. destruct (ch_get m (normalize_identifier s)) as [meta|] eqn:E; [|reflexivity].
      destruct (l_refs meta) as [r'|] eqn:R; [|reflexivity]. exact (Q _ _ _ E R). }
    rewrite (quiet_reval w T x re [] _ QR t). unfold pure. f_equal. apply H. exact Hn.
  Qed.

  Theorem visit_xteval e : plain e = true -> (forall y, In y (fv e) -> y <> lit "loop" -> var_agree w m te re [] y) ->
    (forall y, In y (called e) -> call_agree w m te re [] y) -> xagree e.
  Proof.
    intros Hp Hf Hc.
    enough (xagree e /\ match e with Attr o _ => var_loop o = false -> xagree o | _ => True end) by tauto. revert Hp Hf Hc.
    assert (LA : forall l, Forall (fun e => plain e = true -> (forall y, In y (fv e) -> y <> lit "loop" -> var_agree w m te re [] y) ->
      (forall y, In y (called e) -> call_agree w m te re [] y) -> xagree e /\ match e with Attr o _ => var_loop o = false -> xagree o | _ => True end) l -> forallb plain l = true ->
      (forall y, In y (fvs l) -> y <> lit "loop" -> var_agree w m te re [] y) ->
      (forall y, In y ((fix many (l : list expr) := match l with [] => [] | e :: l' => called e ++ many l' end) l) -> call_agree w m te re [] y) -> Forall xagree l).
    { induction 1 as [|e' l He Hl IH]; intros Hp Hf Hc; constructor.
      - apply (fun A B C => proj1 (He A B C)); [cbn in Hp; apply andb_prop in Hp; tauto| |]; intros; [apply Hf; [cbn; apply in_or_app; auto|auto]|apply Hc; apply in_or_app; auto].
      - apply IH; [cbn in Hp; apply andb_prop in Hp; tauto| |]; intros; [apply Hf; [cbn; apply in_or_app; auto|auto]|apply Hc; apply in_or_app; auto]. }
    induction e using expr_ind'; intros Hp Hf Hc; cbn [plain] in Hp;
      lazymatch goal with |- xagree (Attr _ _) /\ _ => idtac | _ => split; [|exact I]; intros r' wr E end.
    - injection E as <- <-. apply meets_refl.
    - injection E as <- <-. apply meets_refl.
    - injection E as <- <-. apply meets_refl.
    - injection E as <- <-. apply meets_refl.
    - injection E as <- <-. cbn [xteval]. destruct (str_eqb s (lit "self")) eqn:Es.
      + unfold visit_var. rewrite Es. cbn [xeval]. rewrite Es. apply meets_refl.
      + apply xvar, Hf; [cbn [fv]; rewrite Es; left; reflexivity|]. intros ->. vm_compute in Hp. discriminate Hp.
    - injection E as <- <-. apply meets_refl.
    - rewrite visit_arr in E. inv_ok E. cbn [xeval xteval]. apply meets_bnd; [apply xagree_subs; eauto|]. intros vs. apply meets_refl.
    - apply andb_prop in Hp as [Hx Hp].
      assert (A : var_loop e = false -> xagree e) by (intros EL; rewrite EL in Hp; apply (IHe Hp Hf Hc)).
      split; [|exact A]. intros r' wr E. cbn [visit_expr xteval] in *. change is_loop with var_loop in *. destruct (var_loop e) eqn:EL.
      + change (v_plain (loop_attr x0) = Ok (r', wr)) in E. inv_ok E. apply xagree_loop; assumption.
      + change (v_plain (let! r0 := v_sub inp m e in Ok (RField r0 (normalize_identifier x0))) = Ok (r', wr)) in E.
        inv_ok E. specialize (A eq_refl). cbn [xeval]. apply meets_bnd; [apply xagree_sub; assumption|]. intros v. rewrite unraw_norm by exact Hx. apply meets_refl.
    - apply andb_prop in Hp as [H1 H2].
      change (v_plain (let! r := v_sub inp m e1 in let! k := v_sub inp m e2 in Ok (RRef (RIndex r k))) = Ok (r', wr)) in E. inv_ok E.
      assert (A1 : xagree e1) by (apply (fun A B C => proj1 (IHe1 A B C)); [exact H1| |]; intros; [apply Hf; [apply in_or_app; auto|auto]|apply Hc; apply in_or_app; auto]).
      assert (A2 : xagree e2) by (apply (fun A B C => proj1 (IHe2 A B C)); [exact H2| |]; intros; [apply Hf; [apply in_or_app; auto|auto]|apply Hc; apply in_or_app; auto]).
      cbn [xeval xteval]. apply meets_bnd; [apply xagree_sub; assumption|]. intros v. apply meets_bnd; [apply xagree_sub; assumption|]. intros k. apply meets_refl.
    - exact (xagree_filter n l (LA l H Hp Hf Hc) r' wr E).
    - change (v_plain (v_sub inp m e) = Ok (r', wr)) in E. inv_ok E. pose proof (proj1 (IHe Hp Hf Hc)) as A. cbn [xteval]. apply xagree_sub; assumption.
    - change (v_plain (let! r := v_sub inp m e in Ok (RUn o r)) = Ok (r', wr)) in E. inv_ok E. pose proof (proj1 (IHe Hp Hf Hc)) as A. cbn [xeval xteval]. step e.
    - apply andb_prop in Hp as [H1 H2].
      change (v_plain (let! a := v_sub inp m e1 in let! b := v_sub inp m e2 in Ok (RBin o a b)) = Ok (r', wr)) in E. inv_ok E.
      assert (A1 : xagree e1) by (apply (fun A B C => proj1 (IHe1 A B C)); [exact H1| |]; intros; [apply Hf; [apply in_or_app; auto|auto]|apply Hc; apply in_or_app; auto]).
      assert (A2 : xagree e2) by (apply (fun A B C => proj1 (IHe2 A B C)); [exact H2| |]; intros; [apply Hf; [apply in_or_app; auto|auto]|apply Hc; apply in_or_app; auto]).
      cbn [xeval xteval]. apply meets_bin; apply xagree_sub; assumption.
    - apply andb_prop in Hp as [H1 H2].
      change (v_plain (let! a := v_opt inp m l in let! b := v_opt inp m r in Ok (RRange o a b)) = Ok (r', wr)) in E. inv_ok E.
      assert (A1 : match l with Some e => xagree e | None => True end).
      { destruct l as [e1|]; [|exact I]. apply (fun A B C => proj1 (H A B C)); [exact H1| |]; intros; [apply Hf; [cbn; apply in_or_app; auto|auto]|apply Hc; cbn; apply in_or_app; auto]. }
      assert (A2 : match r with Some e => xagree e | None => True end).
      { destruct r as [e1|]; [|exact I]. apply (fun A B C => proj1 (H0 A B C)); [exact H2| |]; intros; [apply Hf; [cbn; apply in_or_app; auto|auto]|apply Hc; cbn; apply in_or_app; auto]. }
      cbn [xeval xteval].
      assert (O : forall o ro, match o with Some e => xagree e | None => True end -> v_opt inp m o = Ok ro ->
        meets (match o with Some e => EffSem.bnd T (tev e) (fun v => EffSem.ret T (Some v)) | None => EffSem.ret T None end)
              (match ro with Some l => ebnd T (rev_ l) (fun v => pure T (Done (Some v))) | None => pure T (Done None) end)).
      { intros o0 ro HO EO. destruct o0 as [e1|]; cbn [v_opt] in EO; inv_ok EO; [|apply meets_refl]. step e1. }
      apply meets_bnd; [apply O; assumption|]. intros a'. apply meets_bnd; [apply O; assumption|]. intros b'. apply meets_refl.
    - change (v_plain (let! r := v_sub inp m e in Ok (RGrp r)) = Ok (r', wr)) in E. inv_ok E. pose proof (proj1 (IHe Hp Hf Hc)) as A. cbn [xeval xteval]. apply xagree_sub; assumption.
    - rewrite visit_tuple in E. inv_ok E. cbn [xeval xteval]. apply meets_bnd; [apply xagree_subs; eauto|]. intros vs. apply meets_refl.
    - apply andb_prop in Hp as [H1 H2]. rewrite visit_call in E.
      assert (AL : Forall xagree l).
      { apply LA; [exact H|exact H2| |]; intros; [apply Hf; [cbn; apply in_or_app; auto|auto]|apply Hc; cbn; apply in_or_app; auto]. }
      assert (AE : plain e = true -> match e with Var _ => false | _ => true end = true ->
        xagree e /\ match e with Attr o _ => var_loop o = false -> xagree o | _ => True end).
      { intros P1 P2. apply IHe; [exact P1| |]; intros; [apply Hf; [cbn; apply in_or_app; auto|auto]|].
        apply Hc. cbn. apply in_or_app. left. destruct e; auto; discriminate P2. }
      assert (Gen : match e with Var _ | Attr _ _ | NamedArgument _ _ => false | _ => true end = true ->
         v_plain (let! r := v_sub inp m e in let! rs := v_args inp m l in Ok (RCall r rs)) = Ok (r', wr) -> plain e = true ->
         meets (ebnd T (tev e) (fun v => ebnd T (eff_map T tev l) (fun vs => of_act T (x_call w T x v vs)))) (rev_ r')).
      { clear E. intros He E Hp. assert (A : xagree e) by (apply AE; [exact Hp|]; destruct e; try reflexivity; discriminate He).
        inv_ok E. pose proof E0 as E2. apply v_sub_Ok in E2 as [wr0 E2]. rewrite xeval_call by (eapply visit_not_field; eassumption).
        apply meets_bnd; [apply xagree_sub; assumption|]. intros v. apply meets_bnd; [apply xagree_args; assumption|]. intros vs. apply meets_refl. }
      cbn [xteval]. change is_loop with var_loop in *.
      destruct e; try (apply Gen; [reflexivity|exact E|exact H1]); [| |discriminate H1].
      + cbv zeta in E. inv_ok E. fold (callee m s). assert (HC : call_agree w m te re [] s) by (apply Hc; cbn; left; reflexivity).
        rewrite xeval_call by exact (proj1 HC). apply meets_bnd; [apply xcallee; exact HC|]. intros v. apply meets_bnd; [apply xagree_args; assumption|]. intros vs. apply meets_refl.
      + destruct (AE H1 eq_refl) as [_ A]. cbn [plain] in H1. apply andb_prop in H1 as [Hx H1].
        assert (Meth : var_loop e = false -> v_plain (let! r := v_sub inp m (Attr e name) in let! rs := v_args inp m l in Ok (RCall r rs)) = Ok (r', wr) ->
          meets (ebnd T (tev e) (fun v => ebnd T (eff_map T tev l) (fun vs => of_act T (x_method w T x v name vs)))) (rev_ r')).
        { clear E. intros HL E. specialize (A HL). inv_ok E. pose proof E0 as E2. apply v_sub_Ok in E2 as [wr0 E2]. cbn [visit_expr] in E2. rewrite HL in E2.
          change (v_plain (let! r0 := v_sub inp m e in Ok (RField r0 (normalize_identifier name))) = Ok (a, wr0)) in E2. inv_ok E2.
          cbn [xeval]. apply meets_bnd; [apply xagree_sub; assumption|]. intros v. apply meets_bnd; [apply xagree_args; assumption|]. intros vs. rewrite unraw_norm by exact Hx. apply meets_refl. }
        destruct (var_loop e) eqn:EL; [|apply Meth; [reflexivity|]].
        * destruct e; try discriminate EL. cbn [var_loop] in EL. rewrite EL in E. destruct (str_eqb name (lit "cycle")) eqn:EC; [|discriminate E].
          destruct l as [|a [|]]; [discriminate E| |destruct a; try discriminate E; match type of E with (match ?x with _ => _ end) = _ => destruct x; discriminate E end].
          assert (E' : v_plain (let! r := v_sub inp m a in Ok (RCycle r)) = Ok (r', wr)).
          { destruct a; try exact E. match type of E with (match ?x with _ => _ end) = _ => destruct x; [discriminate E|exact E] end. }
          clear E. inv_ok E'. inversion AL; subst. destruct (lp_cases lp) as [(i & f & la & L)|L]; [|rewrite L; apply meets_none]. rewrite L.
          cbn [xeval]. apply meets_bnd; [rewrite <- L; apply xagree_sub; assumption|]. intros v t Hn.
          unfold read. rewrite (Hlp i f la L). cbn [slot_value obnd]. unfold EffSem.bnd, EffSem.opt, ebnd, pure in *.
          destruct (of_opt (w_elems w v)) as [vs| |]; try reflexivity. cbn [obnd].
          rewrite (ok_index w wok), (ok_num w wok). cbn [of_opt obnd]. destruct vs; reflexivity.
        * destruct e; try exact E. cbn [var_loop] in EL. rewrite EL in E. exact E.
    - injection E as <- <-. apply meets_refl.
    - change (v_plain (let! r := v_sub inp m e in Ok (RTry r)) = Ok (r', wr)) in E. inv_ok E. pose proof (proj1 (IHe Hp Hf Hc)) as A. cbn [xeval xteval]. step e.
    - discriminate Hp.
  Qed.
End Agree.
