(** * Facts behind Prop_Bind.v: names in statements and expressions. *)
From Verif Require Import Base Ws Ast Ident IdentFacts GenExpr Heritage Gen HeritageSpec HeritageFacts TreeSpec ParseSpec RexprFacts SimExpr
  PanicTop FlatFacts EndFacts TplFacts LendSpec BindSpec.
From Verif Require GroupGen SimFacts StmtGen.
Local Open Scope N_scope.

(** ** Lists of names *)
Lemma missing_nil env l : missing env l = [] <-> incl l env.
Proof.
  unfold missing. induction l as [|x l IH]; cbn [List.filter]; [split; [intros _ y []|auto]|].
  destruct (mem_str x env) eqn:E; cbn [negb].
  - rewrite IH. apply mem_str_In in E. split; [intros H y [<-|Hy]; auto|intros H y Hy; apply H; right; exact Hy].
  - split; [discriminate|]. intros H. assert (K : In x env) by (apply H; left; reflexivity). apply mem_str_In in K. congruence.
Qed.
Lemma nil_app {A} (a b : list A) : a ++ b = [] <-> a = [] /\ b = [].
Proof. split; [apply app_eq_nil|intros [-> ->]; reflexivity]. Qed.
Lemma nil_concat {A B} (f : A -> list B) l : concat (map f l) = [] <-> Forall (fun a => f a = []) l.
Proof. induction l as [|a l IH]; cbn [map concat]; [split; auto|]. rewrite nil_app, IH. split; [intros [H1 H2]; auto|intros H; inversion H; auto]. Qed.
Lemma incl_both {A} (a b c : list A) : incl b c -> incl (a ++ b) (a ++ c).
Proof. intros H x Hx. apply in_app_iff in Hx as [Hx|Hx]; apply in_app_iff; auto. Qed.

(** ** Expressions *)
Definition closed (env : list str) (r : rexpr) : Prop := incl (names r) env.
Definition own_names (r : rexpr) : list str := match r with RName x => [x] | RCycle _ => [LOOP] | _ => [] end.
Lemma closed_list env l : Forall (closed env) l -> incl (concat (map names l)) env.
Proof. induction 1 as [|r l H _ IH]; cbn [map concat]; [intros x []|]. apply incl_app; assumption. Qed.
Lemma closed_args env (l : list (bool * bool * rexpr)) : Forall (closed env) (map snd l) -> incl (concat (map (fun a => match a with (_, e) => names e end) l)) env.
Proof. induction l as [|[a r] l IH]; cbn [map concat snd]; intros H; [intros x []|]. inversion H; subst. apply incl_app; auto. Qed.
Lemma closed_intro env r : incl (own_names r) env -> Forall (closed env) (parts r) -> closed env r.
Proof.
  unfold closed at 2. destruct r; cbn [own_names names parts]; intros H P; try exact H; try (apply closed_list; exact P); try (apply closed_args; exact P);
    try (inversion P; subst; assumption).
  - inversion P as [|? ? P1 P2]; subst. inversion P2; subst. apply incl_app; assumption.
  - inversion P as [|? ? P1 P2]; subst. inversion P2; subst. apply incl_app; assumption.
  - apply Forall_app in P as [P1 P2]. apply incl_app; [destruct l; [inversion P1; assumption|intros x []]|destruct r; [inversion P2; assumption|intros x []]].
  - inversion P; subst. apply (incl_app (l := [LOOP])); assumption.
  - inversion P; subst. apply incl_app; [assumption|apply closed_args; assumption].
  - destruct arg as [a r]. inversion P; subst. assumption.
  - destruct arg as [a r]. inversion P; subst. assumption.
Qed.
Lemma closed_mono env env' r : incl env env' -> closed env r -> closed env' r.
Proof. intros H C. eapply incl_tran; eassumption. Qed.
Lemma closed_name env x : In x env -> closed env (RName x).
Proof. intros H y [<-|[]]. exact H. Qed.
Lemma nil_incl {A} (l : list A) : incl [] l.
Proof. intros x []. Qed.
#[local] Hint Resolve nil_incl : core.

(** What a local stands for. *)
Definition entry_ok (env : list str) (k : str) (v : lmeta) : Prop :=
  match l_refs v with
  | None => In k env
  | Some r => l_init v = true /\ closed env r /\ forall n, r = RName n -> normalize_identifier n = n
  end.
Definition covers (env : list str) (m : chain) : Prop := forall k v, ch_get m k = Some v -> normalize_identifier k = k /\ entry_ok env k v.
Lemma entry_mono env env' k v : incl env env' -> entry_ok env k v -> entry_ok env' k v.
Proof. unfold entry_ok. intros H. destruct (l_refs v); [|auto]. intros (H1 & H2 & H3). split; [exact H1|]. split; [eapply closed_mono; eassumption|exact H3]. Qed.
Lemma covers_mono env env' m : incl env env' -> covers env m -> covers env' m.
Proof. intros H C k v G. destruct (C k v G) as [C1 C2]. split; [exact C1|eapply entry_mono; eassumption]. Qed.
Lemma covers_get env m m' : (forall k, ch_get m' k = ch_get m k) -> covers env m -> covers env m'.
Proof. intros E C k v G. rewrite E in G. exact (C k v G). Qed.
Lemma covers_insert env m k v m' : ch_insert m k v = Ok m' -> normalize_identifier k = k -> entry_ok env k v -> covers env m -> covers env m'.
Proof.
  intros E N0 K C k' v' G. rewrite (SimFacts.ch_get_insert _ _ _ _ _ E) in G. destruct (str_eqb k' k) eqn:Q; [|exact (C k' v' G)].
  apply str_eqb_eq in Q. subst k'. injection G as <-. split; assumption.
Qed.
Definition SELF : str := lit "self".
Definition resolved (env : list str) (m : chain) (x : str) : Prop := forall v, ch_get m (normalize_identifier x) = Some v -> entry_ok env (normalize_identifier x) v.
Definition normal (r : rexpr) : Prop := forall n, r = RName n -> normalize_identifier n = n.
Lemma resolve_closed env m x r : resolved env m x -> ch_resolve m x = Some r -> closed env r /\ normal r.
Proof.
  intros H E. unfold ch_resolve in E. destruct (ch_get m (normalize_identifier x)) as [v|] eqn:G; [|discriminate E]. pose proof (H v G) as K. unfold entry_ok in K.
  injection E as <-. destruct (l_refs v) as [r|]; [destruct K as (_ & K1 & K2); split; assumption|]. split; [apply closed_name, K|]. intros n [= <-]. apply normalize_idem.
Qed.
Lemma field_self_closed env x : In SELF env -> closed env (RField self x).
Proof. intros H y [<-|[]]. exact H. Qed.
Lemma self_closed env m x : In SELF env -> resolved env m x -> closed env (ch_resolve_or_self m x) /\ normal (ch_resolve_or_self m x).
Proof.
  intros S H. unfold ch_resolve_or_self. destruct (ch_resolve m x) as [r|] eqn:E; [eapply resolve_closed; eassumption|]. split; [apply field_self_closed, S|intros n Q; discriminate Q].
Qed.

Definition lets (env : list str) (m : chain) (e : expr) : Prop :=
  (names_loop e -> In LOOP env) /\ (forall x, sub (Var x) e -> resolved env m x) /\ (forall x, sub (Generated x) e -> In x env).
Lemma lets_kids env m e : lets env m e -> Forall (lets env m) (kids e).
Proof.
  intros (H1 & H2 & H3). apply Forall_forall. intros k Hk. split; [|split].
  - intros [x S]. apply H1. exists x. eapply sub_kid; eassumption.
  - intros x S. apply H2. eapply sub_kid; eassumption.
  - intros x S. apply H3. eapply sub_kid; eassumption.
Qed.
Section Visit.
  Variables (inp : ginput) (m : chain) (env : list str).
  Hypothesis XS : In SELF env.
  Definition vok (e : expr) : Prop := lets env m e -> forall r wr, visit_expr inp m e = Ok (r, wr) -> closed env r.
  Definition aok (a : bool * bool * rexpr) : Prop := closed env (snd a).
  Lemma aok_parts l : Forall aok l -> Forall (closed env) (map snd l).
  Proof. induction 1; cbn [map]; constructor; assumption. Qed.
  Lemma vok_sub e r : vok e -> lets env m e -> v_sub inp m e = Ok r -> closed env r.
  Proof. intros H F E. unfold v_sub in E. inv_ok E. eapply H; eassumption. Qed.
  Lemma vok_subs l : Forall vok l -> Forall (lets env m) l -> forall rs, v_subs inp m l = Ok rs -> Forall (closed env) rs.
  Proof.
    induction 1 as [|e l He _ IH]; intros F rs E; cbn [v_subs] in E; inv_ok E; [constructor|]. inversion F; subst. constructor; [|apply IH; assumption].
    eapply vok_sub; eassumption.
  Qed.
  Lemma vok_arg e a : vok e -> lets env m e -> v_arg inp m e = Ok a -> aok a.
  Proof. intros H F E. unfold v_arg in E. inv_ok E. eapply vok_sub; eassumption. Qed.
  Lemma vok_args l : Forall vok l -> Forall (lets env m) l -> forall rs, v_args inp m l = Ok rs -> Forall aok rs.
  Proof.
    induction 1 as [|e l He _ IH]; intros F rs E; cbn [v_args] in E; inv_ok E; [constructor|]. inversion F; subst. constructor; [|apply IH; assumption].
    eapply vok_arg; eassumption.
  Qed.
  Lemma vok_opt (o : option expr) r : (forall e, o = Some e -> vok e /\ lets env m e) -> v_opt inp m o = Ok r -> Forall (closed env) (match r with Some x => [x] | None => [] end).
  Proof.
    intros H E. destruct o as [e|]; cbn [v_opt] in E; inv_ok E; [|constructor]. destruct (H e eq_refl) as [H1 H2]. constructor; [|constructor]. eapply vok_sub; eassumption.
  Qed.
  Ltac sub_ok := match goal with V : v_sub inp m ?e = Ok ?r |- closed _ ?r => apply (vok_sub e r); assumption end.
  Ltac closed_by := apply closed_intro; [cbn [own_names]; auto|cbn [parts]].
  Lemma loop_closed x r : In LOOP env -> loop_attr x = Ok r -> closed env r.
  Proof.
    intros H E. unfold loop_attr in E.
    repeat match type of E with (if ?b then _ else _) = _ => destruct b end; inv_ok E; try discriminate E; cbn [names loop_item app]; intros y [<-|[]]; exact H.
  Qed.
  Lemma visit_closed e : vok e.
  Proof.
    induction e using expr_ind'; unfold vok; intros F r0 wr E; pose proof (lets_kids _ _ _ F) as FK; cbn [kids] in FK;
      try (cbn [visit_expr] in E; inv_ok E; closed_by; constructor).
    - cbn [visit_expr] in E. inv_ok E. unfold visit_var. destruct (str_eqb s (lit "self")) eqn:Q; [apply str_eqb_eq in Q; subst s; apply closed_name, XS|].
      destruct (self_closed env m s XS) as [K1 K2]; [apply F; constructor|].
      unfold normalize_text. destruct (ch_resolve_or_self m s) as [| | |n| | | | | | | | | | | | | | | | | | | | |]; try exact K1. rewrite (K2 n eq_refl). exact K1.
    - rewrite visit_arr in E. inv_ok E. closed_by. eapply vok_subs; eassumption.
    - cbn [visit_expr] in E. destruct (var_loop e) eqn:VL.
      + change (v_plain (loop_attr x) = Ok (r0, wr)) in E. inv_ok E. eapply loop_closed; [|eassumption]. apply (proj1 F). destruct e; try discriminate VL. cbn [var_loop] in VL. apply str_eqb_eq in VL. subst s. exists x. constructor.
      + change (v_plain (let! r := v_sub inp m e in Ok (RField r (normalize_identifier x))) = Ok (r0, wr)) in E. inv_ok E. inversion FK; subst.
        closed_by. constructor; [sub_ok|constructor].
    - change (v_plain (let! r := v_sub inp m e1 in let! k := v_sub inp m e2 in Ok (RRef (RIndex r k))) = Ok (r0, wr)) in E. inv_ok E.
      inversion FK as [|? ? K1 K]; subst. inversion K as [|? ? K2 _]; subst.
      closed_by. constructor; [|constructor]. closed_by. repeat apply Forall_cons; [| |apply Forall_nil]; sub_ok.
    - pose proof (vok_args l H FK) as QA. pose proof (vok_subs l H FK) as QS.
      assert (HD : forall a, In a l -> forall x, v_arg inp m a = Ok x -> aok x).
      { intros a Ha x Hx. rewrite Forall_forall in *. eapply vok_arg; [apply H, Ha|apply FK, Ha|exact Hx]. }
      assert (HS : forall a, In a l -> forall x, v_sub inp m a = Ok x -> closed env x).
      { intros a Ha x Hx. rewrite Forall_forall in *. eapply vok_sub; [apply H, Ha|apply FK, Ha|exact Hx]. }
      assert (ONE : forall F, (forall x, own_names (F x) = []) -> (forall x, parts (F x) = [snd x]) -> forall a x, In a l -> v_arg inp m a = Ok x -> closed env (F x)).
      { intros G G1 G2 a x Ha Hx. pose proof (HD a Ha x Hx) as K. apply closed_intro; [rewrite G1; auto|rewrite G2; constructor; [apply K|constructor]]. }
      rewrite visit_filter in E.
      destruct (str_eqb n (lit "as_ref")).
      { destruct l as [|a [|]]; try discriminate E. inv_ok E. closed_by. constructor; [|constructor]. eapply HS; [left; reflexivity|eassumption]. }
      destruct (str_eqb n (lit "deref")).
      { destruct l as [|a [|]]; try discriminate E. inv_ok E. closed_by. constructor; [|constructor]. eapply HS; [left; reflexivity|eassumption]. }
      destruct (str_eqb n (lit "escape") || str_eqb n (lit "e")).
      { destruct l as [|a [|b [|c l]]]; try discriminate E; [|destruct b; try discriminate E|destruct b; discriminate E]; inv_ok E; eapply (ONE (REscape _)); try reflexivity; try eassumption; left; reflexivity. }
      destruct (str_eqb n (lit "fmt")).
      { destruct l as [|a [|b [|c l]]]; try discriminate E; destruct b; try discriminate E. inv_ok E. eapply (ONE (fun x => RFormat _ [x])); try reflexivity; try eassumption; left; reflexivity. }
      destruct (str_eqb n (lit "format")).
      { destruct l as [|a l]; try discriminate E; destruct a; try discriminate E. inv_ok E. inversion H; subst. inversion FK; subst.
        assert (K : Forall aok a) by (eapply vok_args; eassumption). closed_by. apply aok_parts, K. }
      destruct (str_eqb n (lit "join")).
      { inv_ok E. pose proof (QS _ E0) as K. closed_by. clear - K. induction K as [|x l K _ IH]; cbn [map]; constructor; [|exact IH]. closed_by. constructor; [exact K|constructor]. }
      destruct (str_eqb n (lit "json") || str_eqb n (lit "tojson")).
      { destruct (negb _); [discriminate E|]; destruct l as [|a [|]]; try discriminate E; inv_ok E. eapply (ONE (fun x => RFilter _ _ [x])); try reflexivity; try eassumption; left; reflexivity. }
      destruct (str_eqb n (lit "safe")).
      { destruct l as [|a [|]]; try discriminate E; inv_ok E. eapply (ONE (RSafe _)); try reflexivity; try eassumption; left; reflexivity. }
      inv_ok E. pose proof (QA _ E0) as K. closed_by. apply aok_parts, K.
    - change (v_plain (v_sub inp m e) = Ok (r0, wr)) in E. inv_ok E. inversion FK; subst. sub_ok.
    - change (v_plain (let! r := v_sub inp m e in Ok (RUn o r)) = Ok (r0, wr)) in E. inv_ok E. inversion FK; subst. closed_by. constructor; [|constructor]. sub_ok.
    - change (v_plain (let! a := v_sub inp m e1 in let! b := v_sub inp m e2 in Ok (RBin o a b)) = Ok (r0, wr)) in E. inv_ok E.
      inversion FK as [|? ? K1 K]; subst. inversion K as [|? ? K2 _]; subst. closed_by. repeat apply Forall_cons; [| |apply Forall_nil]; sub_ok.
    - change (v_plain (let! a := v_opt inp m l in let! b := v_opt inp m r in Ok (RRange o a b)) = Ok (r0, wr)) in E. inv_ok E. rewrite Forall_app in FK. destruct FK as [FL FR].
      closed_by. apply Forall_app. split; (eapply vok_opt; [|eassumption]); intros e ->; (split; [assumption|]); [inversion FL|inversion FR]; assumption.
    - change (v_plain (let! r := v_sub inp m e in Ok (RGrp r)) = Ok (r0, wr)) in E. inv_ok E. inversion FK; subst. closed_by. constructor; [|constructor]. sub_ok.
    - rewrite visit_tuple in E. inv_ok E. closed_by. eapply vok_subs; eassumption.
    - inversion FK as [|? ? K1 K2]; subst. pose proof (vok_args l H K2) as QA.
      assert (C : forall f rs, closed env f -> v_args inp m l = Ok rs -> closed env (RCall f rs)).
      { intros f rs Hf Hr. pose proof (QA _ Hr) as K. closed_by. constructor; [exact Hf|apply aok_parts, K]. }
      assert (D : v_plain (let! r := v_sub inp m e in let! rs := v_args inp m l in Ok (RCall r rs)) = Ok (r0, wr) -> closed env r0).
      { intros E1. inv_ok E1. apply C; [sub_ok|assumption]. }
      rewrite visit_call in E. destruct e; try (apply D; exact E).
      + cbv zeta in E. inv_ok E. apply C; [|assumption]. destruct (ch_resolve m s) as [c|] eqn:CC.
        * eapply resolve_closed; [|exact CC]. apply F. eapply sub_kid; [left; reflexivity|constructor].
        * intros y [<-|[]]. exact XS.
      + destruct e; try (apply D; exact E). destruct (str_eqb s (lit "loop")) eqn:Q; [|apply D; exact E].
        destruct (str_eqb name (lit "cycle")); [|discriminate E].
        assert (LI : In LOOP env). { apply (proj1 F). apply str_eqb_eq in Q. subst s. exists name. eapply sub_kid; [left; reflexivity|constructor]. }
        assert (CY : forall x, l = [x] -> v_plain (let! r := v_sub inp m x in Ok (RCycle r)) = Ok (r0, wr) -> closed env r0).
        { intros x -> Ex. inv_ok Ex. inversion H; subst. inversion K2; subst. apply closed_intro; [intros y [<-|[]]; exact LI|]. constructor; [|constructor]. sub_ok. }
        destruct l as [|x [|]]; try discriminate E; [|destruct x as [| | | | | |[|]| | | | | | | | | | | | |]; discriminate E].
        destruct x as [| | | | | |[|]| | | | | | | | | | | | |]; try discriminate E; apply (CY _ eq_refl E).
    - change (v_plain (let! r := v_sub inp m e in Ok (RTry r)) = Ok (r0, wr)) in E. inv_ok E. inversion FK; subst. closed_by. constructor; [|constructor]. sub_ok.
    - cbn [visit_expr] in E. inv_ok E. apply closed_name. apply (proj2 (proj2 F)). constructor.
  Qed.
  Lemma root_closed e r : lets env m e -> visit_expr_root inp m e = Ok r -> closed env r.
  Proof. intros H E. unfold visit_expr_root in E. apply rbind_inv in E as ([r' w] & E & E2). injection E2 as <-. eapply visit_closed; eassumption. Qed.
End Visit.
(** A filter block. *)
Lemma insert_sub x e' : forall e, sub e' (insert_in_filter x e) -> e' = Generated x \/ sub e' e \/ (exists n l, e' = Filter n l).
Proof.
  intros e. revert e'. induction e using expr_ind'; intros e' S; try (cbn [insert_in_filter] in S; right; left; exact S).
  cbn [insert_in_filter] in S. destruct l as [|a l].
  - inversion S as [|? k ? Hk S']; subst; [right; right; eauto|]. destruct Hk as [<-|[]]. inversion S' as [|? k ? Hk ?]; subst; [left; reflexivity|destruct Hk].
  - assert (O : sub e' (Filter n (Generated x :: a :: l)) -> e' = Generated x \/ sub e' (Filter n (a :: l)) \/ (exists n l, e' = Filter n l)).
    { intros S1. inversion S1 as [|? k ? Hk S']; subst; [right; right; eauto|]. destruct Hk as [<-|Hk].
      - inversion S' as [|? k ? Hk ?]; subst; [left; reflexivity|destruct Hk].
      - right. left. eapply sub_kid; [exact Hk|exact S']. }
    destruct a; try exact (O S). inversion H as [|? ? IH _]; subst. inversion S as [|? k ? Hk S']; subst; [right; right; eauto|]. destruct Hk as [<-|Hk].
    + destruct (IH e' S') as [->|[K|K]]; [left; reflexivity| |right; right; exact K]. right. left. eapply sub_kid; [left; reflexivity|exact K].
    + right. left. eapply sub_kid; [right; exact Hk|exact S'].
Qed.
Lemma lets_insert env m x n l : In x env -> Forall (lets env m) l -> lets env m (insert_in_filter x (Filter n l)).
Proof.
  intros HX HL. assert (K : lets env m (Filter n l)).
  { rewrite Forall_forall in HL. split; [|split].
    - intros [y S]. inversion S as [|? k ? Hk S']; subst. apply (proj1 (HL k Hk)). exists y. exact S'.
    - intros y S. inversion S as [|? k ? Hk S']; subst. apply (HL k Hk). exact S'.
    - intros y S. inversion S as [|? k ? Hk S']; subst. apply (HL k Hk). exact S'. }
  destruct K as (K1 & K2 & K3). split; [|split].
  - intros [y S]. destruct (insert_sub _ _ _ S) as [Q|[S'|(? & ? & Q)]]; [discriminate Q| |discriminate Q]. apply K1. exists y. exact S'.
  - intros y S. destruct (insert_sub _ _ _ S) as [Q|[S'|(? & ? & Q)]]; [discriminate Q| |discriminate Q]. apply K2. exact S'.
  - intros y S. destruct (insert_sub _ _ _ S) as [Q|[S'|(? & ? & Q)]]; [injection Q as <-; exact HX| |discriminate Q]. apply K3. exact S'.
Qed.

(** ** Patterns *)
Section TargetInd.
  Variable P : target -> Prop.
  Hypothesis T0 : forall t, match t with TTuple _ _ | TStruct _ _ | TOrChain _ => True | _ => P t end.
  Hypothesis T1 : forall p l, Forall P l -> P (TTuple p l).
  Hypothesis T2 : forall p l, Forall (fun x => P (snd x)) l -> P (TStruct p l).
  Hypothesis T3 : forall l, Forall P l -> P (TOrChain l).
  Fixpoint target_all (t : target) : P t :=
    let many := fix many (l : list target) : Forall P l := match l with [] => Forall_nil _ | t :: l' => Forall_cons _ (target_all t) (many l') end in
    match t with
    | TTuple p l => T1 p l (many l)
    | TOrChain l => T3 l (many l)
    | TStruct p l => T2 p l ((fix f (l : list (str * target)) : Forall (fun x => P (snd x)) l :=
        match l with [] => Forall_nil _ | x :: l' => Forall_cons x (match x as y return P (snd y) with (_, t) => target_all t end) (f l') end) l)
    | t => T0 t
    end.
End TargetInd.
Lemma pattern_norm t : pattern_names (norm_target t) = target_names t.
Proof.
  apply (target_all (fun t => pattern_names (norm_target t) = target_names t)).
  - intros []; try exact I; try reflexivity. cbn [norm_target pattern_names target_names]. destruct (str_eqb s (lit "_")) eqn:E; [rewrite E; reflexivity|].
    destruct (str_eqb (normalize_identifier s) (lit "_")) eqn:Q; [|reflexivity]. exfalso. apply str_eqb_eq in Q.
    destruct (in_rust_keywords_dec s) as [K|K]; [rewrite (normalize_keyword _ K) in Q; discriminate Q|]. rewrite (normalize_other _ K) in Q. subst s. discriminate E.
  - intros p l H. cbn [norm_target pattern_names target_names]. rewrite map_map. f_equal. apply map_ext_in. rewrite Forall_forall in H. exact H.
  - intros p l H. cbn [norm_target pattern_names target_names]. rewrite map_map. f_equal. apply map_ext_in. intros [x t'] Ht. rewrite Forall_forall in H. exact (H _ Ht).
  - intros l H. cbn [norm_target pattern_names target_names]. rewrite map_map. f_equal. apply map_ext_in. rewrite Forall_forall in H. exact H.
Qed.
Lemma target_normal t : Forall (fun k => normalize_identifier k = k) (target_names t).
Proof.
  assert (C : forall {A} (f : A -> list str) l, Forall (fun a => Forall (fun k => normalize_identifier k = k) (f a)) l -> Forall (fun k => normalize_identifier k = k) (concat (map f l))).
  { intros A f l H. induction H; cbn [map concat]; [constructor|]. apply Forall_app. auto. }
  apply (target_all (fun t => Forall (fun k => normalize_identifier k = k) (target_names t))).
  - intros []; try exact I; try constructor. cbn [target_names]. destruct (str_eqb s (lit "_")); constructor; [apply normalize_idem|constructor].
  - intros p l H. apply C, H.
  - intros p l H. apply C, H.
  - intros l H. apply C, H.
Qed.
Definition under (m : chain) : chain := match m with Chain p ss => Chain p (tl ss) end.
Lemma under_insert m k v m' : ch_insert m k v = Ok m' -> under m' = under m.
Proof. destruct m as [p [|s ss]]; cbn [ch_insert]; [discriminate|]. intros [= <-]. reflexivity. Qed.
Lemma under_push m : under (ch_push m) = m.
Proof. destruct m. reflexivity. Qed.
Lemma pop_under m m' : ch_pop m = Ok m' -> m' = under m.
Proof. destruct m as [p [|s [|s' ss]]]; cbn [ch_pop]; try discriminate. intros [= <-]. reflexivity. Qed.
Lemma insert_all_covers env v : l_refs v = None -> forall ks m m', Forall (fun k => normalize_identifier k = k) ks -> incl ks env -> insert_all m v ks = Ok m' -> covers env m ->
  covers env m' /\ under m' = under m.
Proof.
  intros HV. induction ks as [|k ks IH]; intros m m' HN HI E C; cbn [insert_all] in E; [injection E as <-; auto|].
  apply rbind_inv in E as (m1 & E1 & E). inversion HN; subst. destruct (IH m1 m') as [K1 K2]; auto.
  - intros x Hx. apply HI. right. exact Hx.
  - eapply covers_insert; try eassumption. unfold entry_ok. rewrite HV. apply HI. left. reflexivity.
  - split; [exact K1|]. rewrite K2. eapply under_insert, E1.
Qed.
Lemma target_covers env m b t p m' : visit_target m b t = Ok (p, m') -> covers env m ->
  p = norm_target t /\ covers (pattern_names p ++ env) m' /\ under m' = under m.
Proof.
  intros E C. unfold visit_target in E. apply rbind_inv in E as (m1 & E1 & E). injection E as <- <-. split; [reflexivity|]. rewrite pattern_norm.
  apply (insert_all_covers (target_names t ++ env) (if b then m_initialized else m_default)) with (ks := target_names t); auto.
  - destruct b; reflexivity.
  - apply target_normal.
  - apply incl_appl, incl_refl.
  - eapply covers_mono; [|exact C]. apply incl_appr, incl_refl.
Qed.

(** ** Statements *)
Definition ok (env : list str) (code : list stmt) : Prop := all_unbound env code = [].
Fixpoint after (env : list str) (code : list stmt) : list str := match code with [] => env | s :: l => after (binds s ++ env) l end.
Lemma after_app env a b : after env (a ++ b) = after (after env a) b.
Proof. revert env. induction a as [|s a IH]; intros env; cbn [app after]; auto. Qed.
Lemma after_incl env a : incl env (after env a).
Proof. revert env. induction a as [|s a IH]; intros env; cbn [after]; [apply incl_refl|]. eapply incl_tran; [|apply IH]. apply incl_appr, incl_refl. Qed.
Lemma ok_nil env : ok env [].
Proof. reflexivity. Qed.
Lemma ok_app env a b : ok env (a ++ b) <-> ok env a /\ ok (after env a) b.
Proof.
  unfold ok. revert env. induction a as [|s a IH]; intros env; cbn [app all_unbound after]; [split; [auto|intros [_ H]; exact H]|].
  rewrite !nil_app, IH. tauto.
Qed.
Lemma ok_one env s : unbound env s = [] -> ok env [s].
Proof. intros H. unfold ok. cbn [all_unbound]. rewrite H. reflexivity. Qed.
Lemma missing_mono env env' l : incl env env' -> missing env l = [] -> missing env' l = [].
Proof. rewrite !missing_nil. intros H1 H2. eapply incl_tran; eassumption. Qed.
Lemma unbound_if env l : unbound env (SIf l) = concat (map (fun b => match b with (t, body) => test_unbound env t ++ all_unbound (test_names t ++ env) body end) l).
Proof. reflexivity. Qed.
Lemma unbound_match env e l : unbound env (SMatch e l) = missing env (names e) ++ concat (map (fun b => match b with (p, body) => all_unbound (pattern_names p ++ env) body end) l).
Proof. reflexivity. Qed.
Lemma unbound_loop env h it k flt v body els tail : unbound env (SLoop h it k flt v body els tail) =
  missing env (names it) ++ match flt with Some (p, c) => missing (pattern_names p ++ env) (names c) | None => [] end ++
  all_unbound (pattern_names v ++ LOOP :: env) body ++ all_unbound env els ++ all_unbound env tail.
Proof. reflexivity. Qed.
Lemma unbound_block env l : unbound env (SBlock l) = all_unbound env l.
Proof. reflexivity. Qed.
Definition mono (s : stmt) : Prop := forall env env', incl env env' -> unbound env s = [] -> unbound env' s = [].
Lemma mono_list l : Forall mono l -> forall env env', incl env env' -> ok env l -> ok env' l.
Proof.
  unfold ok. induction 1 as [|s l H _ IH]; intros env env' HI; cbn [all_unbound]; [auto|]. rewrite !nil_app. intros [H1 H2]. split; [eapply H; eassumption|].
  eapply IH; [|exact H2]. apply incl_both, HI.
Qed.
Lemma test_mono env env' t : incl env env' -> test_unbound env t = [] -> test_unbound env' t = [].
Proof.
  intros HI. destruct t; cbn [test_unbound]; try (apply missing_mono; exact HI); auto. rewrite !nil_app. intros [H1 H2]. split; [eapply missing_mono; eassumption|].
  eapply missing_mono; [|exact H2]. apply incl_both, HI.
Qed.
Lemma unbound_mono : forall s, mono s.
Proof.
  apply StmtGen.stmt_all.
  - intros []; try exact I; intros env env' HI; cbn [unbound]; auto; try (apply missing_mono; exact HI). rewrite !nil_app. intros [H1 H2]. split; eapply missing_mono; eassumption.
  - intros l H env env' HI. rewrite !unbound_if, !nil_concat, !Forall_forall. rewrite Forall_forall in H. intros K [t b] Hb. specialize (K _ Hb). specialize (H _ Hb). cbn [snd] in H. cbv beta iota in K |- *.
    rewrite nil_app in K |- *. destruct K as [K1 K2]. split; [eapply test_mono; eassumption|]. eapply mono_list; [exact H| |exact K2]. apply incl_both, HI.
  - intros e l H env env' HI. rewrite !unbound_match, !nil_app, !nil_concat, !Forall_forall. rewrite Forall_forall in H. intros [K0 K]. split; [eapply missing_mono; eassumption|].
    intros [p b] Hb. specialize (K _ Hb). specialize (H _ Hb). cbn [snd] in H. cbv beta iota in K |- *. eapply mono_list; [exact H| |exact K]. apply incl_both, HI.
  - intros h it k f v b e t HB HE HT env env' HI. rewrite !unbound_loop, !nil_app. intros (K1 & K2 & K3 & K4 & K5). split; [eapply missing_mono; eassumption|]. split.
    { destruct f as [[p c]|]; [|reflexivity]. eapply missing_mono; [|exact K2]. apply incl_both, HI. }
    split; [eapply mono_list; [exact HB| |exact K3]; apply incl_both; intros x [<-|Hx]; [left; reflexivity|right; apply HI, Hx]|].
    split; eapply mono_list; eassumption.
  - intros l H env env' HI. rewrite !unbound_block. apply mono_list; assumption.
Qed.
Lemma ok_mono env env' l : incl env env' -> ok env l -> ok env' l.
Proof. apply mono_list. apply Forall_forall. intros s _. apply unbound_mono. Qed.
Lemma ok_seq env a b : ok env a -> ok env b -> ok env (a ++ b).
Proof. intros H1 H2. apply ok_app. split; [exact H1|]. eapply ok_mono; [apply after_incl|exact H2]. Qed.
Lemma ok_concat {A} env (l : list (A * list stmt)) : Forall (fun x => ok env (snd x)) l -> ok env (concat (map snd l)).
Proof. induction 1 as [|a l H _ IH]; cbn [map concat]; [reflexivity|]. apply ok_seq; assumption. Qed.
