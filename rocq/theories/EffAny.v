(** * Whether an expression is accepted does not depend on the variables. *)
From Verif Require Import Base Ast Ident GenExpr SimExpr.
Local Open Scope N_scope.

Section Any.
  Variables (inp : ginput) (m m' : chain).
  Definition any (e : expr) : Prop := forall r wr, visit_expr inp m e = Ok (r, wr) -> exists r', visit_expr inp m' e = Ok (r', wr).
  Lemma any_sub e r : any e -> v_sub inp m e = Ok r -> exists r', v_sub inp m' e = Ok r'.
  Proof. intros H E. apply v_sub_Ok in E as [wr E]. destruct (H _ _ E) as [r' E']. exists r'. unfold v_sub. rewrite E'. reflexivity. Qed.
  Lemma any_subs l : Forall any l -> forall r, v_subs inp m l = Ok r -> exists r', v_subs inp m' l = Ok r'.
  Proof.
    induction 1 as [|e l He Hl IH]; intros r E; [exists []; reflexivity|]. cbn [v_subs] in *. apply rbind_Ok in E as (a & E1 & E). apply rbind_Ok in E as (b & E2 & _).
    destruct (any_sub e a He E1) as [a' ->]. destruct (IH _ E2) as [b' ->]. eexists. reflexivity.
  Qed.
  Lemma any_arg e r : any e -> v_arg inp m e = Ok r -> exists r', v_arg inp m' e = Ok r'.
  Proof. intros H E. unfold v_arg in *. apply rbind_Ok in E as (a & E1 & _). destruct (any_sub e a H E1) as [a' ->]. eexists. reflexivity. Qed.
  Lemma any_args l : Forall any l -> forall r, v_args inp m l = Ok r -> exists r', v_args inp m' l = Ok r'.
  Proof.
    induction 1 as [|e l He Hl IH]; intros r E; [exists []; reflexivity|]. cbn [v_args] in *. apply rbind_Ok in E as (a & E1 & E). apply rbind_Ok in E as (b & E2 & _).
    destruct (any_arg e a He E1) as [a' ->]. destruct (IH _ E2) as [b' ->]. eexists. reflexivity.
  Qed.
  Lemma any_opt o r : match o with Some e => any e | None => True end -> v_opt inp m o = Ok r -> exists r', v_opt inp m' o = Ok r'.
  Proof. destruct o as [e|]; [|intros _ _; exists None; reflexivity]. cbn [v_opt]. intros H E. apply rbind_Ok in E as (a & E1 & _). destruct (any_sub e a H E1) as [a' ->]. eexists. reflexivity. Qed.
  Ltac steps E := repeat match type of E with
    | rbind _ _ = Ok _ => let a := fresh "a" in let E1 := fresh "E" in apply rbind_Ok in E as (a & E1 & E);
        match type of E1 with
        | v_sub _ _ ?e = _ => destruct (any_sub e a ltac:(assumption) E1) as [? ->]
        | v_subs _ _ ?e = _ => destruct (any_subs e ltac:(assumption) a E1) as [? ->]
        | v_arg _ _ ?e = _ => destruct (any_arg e a ltac:(assumption) E1) as [? ->]
        | v_args _ _ ?e = _ => destruct (any_args e ltac:(assumption) a E1) as [? ->]
        | v_opt _ _ ?e = _ => destruct (any_opt e a ltac:(assumption) E1) as [? ->]
        | _ => rewrite E1
        end; cbn [rbind]
    end.
  Ltac go E := first [let q := fresh "q" in let Eq := fresh "Eq" in apply v_plain_Ok in E as (q & E & Eq); injection Eq as _ ->; unfold v_plain; steps E
    |steps E; injection E as _ <-]; eexists; reflexivity.
  Lemma any_filter name args : Forall any args -> any (Filter name args).
  Proof.
    intros HA r wr E. rewrite SimExpr.visit_filter in *.
    destruct (str_eqb name (lit "as_ref")); [destruct args as [|a [|]]; try discriminate E; inversion HA; subst; go E|].
    destruct (str_eqb name (lit "deref")); [destruct args as [|a [|]]; try discriminate E; inversion HA; subst; go E|].
    destruct (str_eqb name (lit "escape") || str_eqb name (lit "e")).
    { destruct args as [|a [|b [|c l]]]; try discriminate E; [inversion HA; subst; go E| |destruct b; discriminate E]. destruct b; try discriminate E. inversion HA; subst. go E. }
    destruct (str_eqb name (lit "fmt")); [destruct args as [|a [|b [|c l]]]; try discriminate E; destruct b; try discriminate E; inversion HA; subst; go E|].
    destruct (str_eqb name (lit "format")); [destruct args as [|a l]; try discriminate E; destruct a; try discriminate E; inversion HA; subst; go E|].
    destruct (str_eqb name (lit "join")); [go E|].
    destruct (str_eqb name (lit "json") || str_eqb name (lit "tojson")); [destruct (negb (f_json inp)); [discriminate E|]; destruct args as [|a [|]]; try discriminate E; inversion HA; subst; go E|].
    destruct (str_eqb name (lit "safe")); [destruct args as [|a [|]]; try discriminate E; inversion HA; subst; go E|]. go E.
  Qed.
  Theorem visit_any e : any e.
  Proof.
    enough (any e /\ match e with Attr o _ => any o | _ => True end) by tauto.
    assert (LA : forall l, Forall (fun e => any e /\ match e with Attr o _ => any o | _ => True end) l -> Forall any l) by (intros l H; eapply Forall_impl; [|exact H]; intros a K; apply K).
    induction e using expr_ind'; lazymatch goal with |- any (Attr _ _) /\ _ => split; [|apply IHe] | _ => split; [|exact I] end; intros r' wr E;
      try (injection E as <- <-; eexists; reflexivity).
    - rewrite visit_arr in *. specialize (LA _ H). go E.
    - cbn [visit_expr] in *. destruct IHe as [IH _]. destruct (var_loop e).
      + change (v_plain (loop_attr x) = Ok (r', wr)) in E. exists r'. exact E.
      + change (v_plain (let! r0 := v_sub inp m e in Ok (RField r0 (normalize_identifier x))) = Ok (r', wr)) in E.
        change (exists r', v_plain (let! r0 := v_sub inp m' e in Ok (RField r0 (normalize_identifier x))) = Ok (r', wr)). go E.
    - destruct IHe1 as [IH1 _], IHe2 as [IH2 _].
      change (v_plain (let! r := v_sub inp m e1 in let! k := v_sub inp m e2 in Ok (RRef (RIndex r k))) = Ok (r', wr)) in E.
      change (exists r', v_plain (let! r := v_sub inp m' e1 in let! k := v_sub inp m' e2 in Ok (RRef (RIndex r k))) = Ok (r', wr)). go E.
    - exact (any_filter n l (LA l H) r' wr E).
    - destruct IHe as [IH _]. change (v_plain (v_sub inp m e) = Ok (r', wr)) in E. change (exists r', v_plain (v_sub inp m' e) = Ok (r', wr)).
      apply v_plain_Ok in E as (q & E & Eq). injection Eq as _ ->. destruct (any_sub e _ IH E) as [a' ->]. eexists. reflexivity.
    - destruct IHe as [IH _]. change (v_plain (let! r := v_sub inp m e in Ok (RUn o r)) = Ok (r', wr)) in E.
      change (exists r', v_plain (let! r := v_sub inp m' e in Ok (RUn o r)) = Ok (r', wr)). go E.
    - destruct IHe1 as [IH1 _], IHe2 as [IH2 _].
      change (v_plain (let! a := v_sub inp m e1 in let! b := v_sub inp m e2 in Ok (RBin o a b)) = Ok (r', wr)) in E.
      change (exists r', v_plain (let! a := v_sub inp m' e1 in let! b := v_sub inp m' e2 in Ok (RBin o a b)) = Ok (r', wr)). go E.
    - change (v_plain (let! a := v_opt inp m l in let! b := v_opt inp m r in Ok (RRange o a b)) = Ok (r', wr)) in E.
      change (exists r', v_plain (let! a := v_opt inp m' l in let! b := v_opt inp m' r in Ok (RRange o a b)) = Ok (r', wr)).
      assert (O1 : match l with Some e => any e | None => True end) by (destruct l; [apply H|exact I]).
      assert (O2 : match r with Some e => any e | None => True end) by (destruct r; [apply H0|exact I]). go E.
    - destruct IHe as [IH _]. change (v_plain (let! r := v_sub inp m e in Ok (RGrp r)) = Ok (r', wr)) in E.
      change (exists r', v_plain (let! r := v_sub inp m' e in Ok (RGrp r)) = Ok (r', wr)). go E.
    - rewrite visit_tuple in *. specialize (LA _ H). go E.
    - specialize (LA _ H). rewrite visit_call in *. destruct IHe as [IH IHo].
      assert (Gen : v_plain (let! r := v_sub inp m e in let! rs := v_args inp m l in Ok (RCall r rs)) = Ok (r', wr) ->
        exists r', v_plain (let! r := v_sub inp m' e in let! rs := v_args inp m' l in Ok (RCall r rs)) = Ok (r', wr)) by (clear E; intros E; go E).
      destruct e; cbv zeta in *; try exact (Gen E); [go E|].
      destruct e; try exact (Gen E). destruct (str_eqb s (lit "loop")); [|exact (Gen E)]. destruct (str_eqb name (lit "cycle")); [|discriminate E].
      destruct l as [|a [|b l]]; [discriminate E| |destruct a; try discriminate E; match type of E with (match ?x with _ => _ end) = _ => destruct x; discriminate E end].
      inversion LA; subst. destruct a; try (go E). match type of E with (match ?x with _ => _ end) = _ => destruct x; [discriminate E|] end. go E.
    - destruct IHe as [IH _]. change (v_plain (let! r := v_sub inp m e in Ok (RTry r)) = Ok (r', wr)) in E.
      change (exists r', v_plain (let! r := v_sub inp m' e in Ok (RTry r)) = Ok (r', wr)). go E.
  Qed.
End Any.
