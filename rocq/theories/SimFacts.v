(** * Facts about visiting, scopes and patterns used by the simulation. *)
From Coq Require Import ZArith ZifyBool ZifyNat ZifyN.
From Verif Require Import Base Ws Ast Ident IdentFacts GenExpr Heritage Gen Sem RefSem RexprFacts FlushFacts Scoped SimExpr.
Local Open Scope N_scope.
Notation norm := normalize_identifier.

(** ** The generated expression depends only on what the names it mentions stand for *)
Section Ext.
  Variables (inp : ginput) (m m' : chain).
  Definition same_res (x : str) : Prop := ch_resolve m x = ch_resolve m' x.
  Lemma visit_var_ext x : same_res x -> visit_var m x = visit_var m' x.
  Proof. intros H. unfold visit_var, ch_resolve_or_self. rewrite H. reflexivity. Qed.
  Definition ext_ok (e : expr) : Prop := visit_expr inp m e = visit_expr inp m' e.
  Lemma ext_sub e : ext_ok e -> v_sub inp m e = v_sub inp m' e.
  Proof. unfold v_sub. intros ->. reflexivity. Qed.
  Lemma ext_subs l : Forall ext_ok l -> v_subs inp m l = v_subs inp m' l.
  Proof. induction 1 as [|e l He Hl IH]; [reflexivity|]. cbn [v_subs]. rewrite (ext_sub e He), IH. reflexivity. Qed.
  Lemma ext_arg e : ext_ok e -> v_arg inp m e = v_arg inp m' e.
  Proof. unfold v_arg. intros H. rewrite (ext_sub e H). reflexivity. Qed.
  Lemma ext_args l : Forall ext_ok l -> v_args inp m l = v_args inp m' l.
  Proof. induction 1 as [|e l He Hl IH]; [reflexivity|]. cbn [v_args]. rewrite (ext_arg e He), IH. reflexivity. Qed.
  Lemma ext_filter name l : Forall ext_ok l -> ext_ok (Filter name l).
  Proof.
    intros H. unfold ext_ok. rewrite !visit_filter. rewrite (ext_subs l H), (ext_args l H).
    assert (H1 : forall a, In a l -> v_sub inp m a = v_sub inp m' a) by (intros a Ha; apply ext_sub; rewrite Forall_forall in H; auto).
    assert (H2 : forall a, In a l -> v_arg inp m a = v_arg inp m' a) by (intros a Ha; apply ext_arg; rewrite Forall_forall in H; auto).
    destruct l as [|a l]; [reflexivity|]. rewrite (H1 a), (H2 a) by (left; reflexivity).
    assert (H3 : v_args inp m l = v_args inp m' l) by (apply ext_args; inversion H; assumption). rewrite H3. reflexivity.
  Qed.
  Hypothesis Hself : same_res (lit "self").
  Theorem visit_ext e : (forall x, In x (fv e) -> same_res x) -> ext_ok e.
  Proof.
    assert (LA : forall l, Forall (fun e => (forall x, In x (fv e) -> same_res x) -> ext_ok e) l ->
       (forall x, In x (fvs l) -> same_res x) -> Forall ext_ok l).
    { induction 1 as [|a l He Hl IH]; intros H; constructor; [apply He|apply IH]; intros x Hx; apply H; cbn; apply in_or_app; auto. }
    induction e using expr_ind'; intros Hf; try reflexivity.
    - unfold ext_ok. cbn [visit_expr]. f_equal. f_equal. unfold visit_var. destruct (str_eqb s (lit "self")) eqn:E; [reflexivity|].
      unfold ch_resolve_or_self. rewrite (Hf s); [reflexivity|]. cbn [fv app]. rewrite E. left. reflexivity.
    - unfold ext_ok. rewrite !visit_arr. rewrite (ext_subs l); [reflexivity|]. apply LA; assumption.
    - specialize (IHe Hf). unfold ext_ok in *. cbn [visit_expr]. rewrite IHe. reflexivity.
    - assert (A1 : ext_ok e1) by (apply IHe1; intros; apply Hf; apply in_or_app; auto).
      assert (A2 : ext_ok e2) by (apply IHe2; intros; apply Hf; apply in_or_app; auto).
      unfold ext_ok in *. cbn [visit_expr]. rewrite A1, A2. reflexivity.
    - apply ext_filter. apply LA; assumption.
    - specialize (IHe Hf). unfold ext_ok in *. cbn [visit_expr]. rewrite IHe. reflexivity.
    - specialize (IHe Hf). unfold ext_ok in *. cbn [visit_expr]. rewrite IHe. reflexivity.
    - assert (A1 : ext_ok e1) by (apply IHe1; intros; apply Hf; apply in_or_app; auto).
      assert (A2 : ext_ok e2) by (apply IHe2; intros; apply Hf; apply in_or_app; auto).
      unfold ext_ok in *. cbn [visit_expr]. rewrite A1, A2. reflexivity.
    - assert (A1 : v_opt inp m l = v_opt inp m' l).
      { destruct l as [e|]; [|reflexivity]. cbn [v_opt]. rewrite ext_sub; [reflexivity|]. apply H. intros; apply Hf; cbn; apply in_or_app; auto. }
      assert (A2 : v_opt inp m r = v_opt inp m' r).
      { destruct r as [e|]; [|reflexivity]. cbn [v_opt]. rewrite ext_sub; [reflexivity|]. apply H0. intros; apply Hf; cbn; apply in_or_app; auto. }
      unfold ext_ok.
      change (v_plain (let! a := v_opt inp m l in let! b := v_opt inp m r in Ok (RRange o a b)) =
              v_plain (let! a := v_opt inp m' l in let! b := v_opt inp m' r in Ok (RRange o a b))). rewrite A1, A2. reflexivity.
    - specialize (IHe Hf). unfold ext_ok in *. cbn [visit_expr]. rewrite IHe. reflexivity.
    - unfold ext_ok. rewrite !visit_tuple. rewrite (ext_subs l); [reflexivity|]. apply LA; assumption.
    - assert (A1 : ext_ok e) by (apply IHe; intros; apply Hf; cbn; apply in_or_app; auto).
      assert (A2 : Forall ext_ok l) by (apply LA; [assumption|]; intros; apply Hf; cbn; apply in_or_app; auto).
      unfold ext_ok. rewrite !visit_call. pose proof (ext_sub e A1) as A3. pose proof (ext_args l A2) as A4.
      destruct e; try (rewrite A3, A4; reflexivity).
      + cbv zeta. rewrite A4.
        destruct (str_eqb s (lit "self")) eqn:E; [apply str_eqb_eq in E; subst s; rewrite Hself; reflexivity|].
        rewrite (Hf s); [reflexivity|]. cbn [fv app]. rewrite E. left. reflexivity.
      + rewrite A3, A4. destruct l as [|a l]; [reflexivity|]. inversion A2; subst. rewrite (ext_sub a) by assumption. reflexivity.
    - specialize (IHe Hf). unfold ext_ok in *. cbn [visit_expr]. rewrite IHe. reflexivity.
  Qed.
End Ext.

(** ** The names in a generated expression *)
Section Names.
  Variables (inp : ginput) (m : chain) (P : str -> Prop).
  Hypothesis P_self : P (lit "self").
  Hypothesis P_item : P (lit "_loop_item").
  Definition names_in (r : rexpr) : Prop := forall n, In n (rnames r) -> P n.
  Definition names_ok (e : expr) : Prop := forall r wr, visit_expr inp m e = Ok (r, wr) -> names_in r.
  Lemma names_sub e r : names_ok e -> v_sub inp m e = Ok r -> names_in r.
  Proof. intros H E. apply v_sub_Ok in E as [wr E]. eapply H; eassumption. Qed.
  Lemma names_subs l : Forall names_ok l -> forall rs, v_subs inp m l = Ok rs -> forall n, In n (rnames_l rs) -> P n.
  Proof.
    induction 1 as [|e l He Hl IH]; intros rs E n Hn; cbn [v_subs] in E; inv_ok E; [destruct Hn|].
    cbn [rnames_l] in Hn. apply in_app_or in Hn as [Hn|Hn]; [eapply names_sub; eassumption|eapply IH; eauto].
  Qed.
  Lemma names_arg e a : names_ok e -> v_arg inp m e = Ok a -> names_in (snd a).
  Proof. unfold v_arg. intros H E. inv_ok E. eapply names_sub; eassumption. Qed.
  Lemma names_args l : Forall names_ok l -> forall rs, v_args inp m l = Ok rs -> forall n, In n (rnames_a rs) -> P n.
  Proof.
    induction 1 as [|e l He Hl IH]; intros rs E n Hn; cbn [v_args] in E; inv_ok E; [destruct Hn|].
    destruct a as [[b c] r]. cbn [rnames_a] in Hn. apply in_app_or in Hn as [Hn|Hn]; [exact (names_arg _ _ He E0 n Hn)|eapply IH; eauto].
  Qed.
  Lemma names_a1 a n : In n (rnames_a [a]) -> In n (rnames (snd a)).
  Proof. destruct a as [[b c] r]. cbn. rewrite app_nil_r. auto. Qed.
  Lemma rnames_refs rs : rnames_l (map RRef rs) = rnames_l rs.
  Proof. induction rs as [|r rs IH]; [reflexivity|]. cbn [map rnames_l]. rewrite IH. reflexivity. Qed.
  Lemma names_filter name l : Forall names_ok l -> names_ok (Filter name l).
  Proof.
    intros HA r wr E n Hn. rewrite visit_filter in E.
    destruct (str_eqb name (lit "as_ref")).
    { destruct l as [|a [|]]; try discriminate E. inversion HA; subst. inv_ok E. eapply names_sub; eassumption. }
    destruct (str_eqb name (lit "deref")).
    { destruct l as [|a [|]]; try discriminate E. inversion HA; subst. inv_ok E. eapply names_sub; eassumption. }
    destruct (str_eqb name (lit "escape") || _).
    { destruct l as [|a [|b [|c l]]]; try discriminate E.
      - inversion HA; subst. inv_ok E. match goal with V : v_arg _ _ _ = Ok ?y |- _ => destruct y as [[b c] r]; exact (names_arg _ _ H1 V n Hn) end.
      - destruct b; try discriminate E. inversion HA; subst. inv_ok E. match goal with V : v_arg _ _ _ = Ok ?y |- _ => destruct y as [[b c] r]; exact (names_arg _ _ H1 V n Hn) end.
      - destruct b; discriminate E. }
    destruct (str_eqb name (lit "fmt")).
    { destruct l as [|a [|b [|c l]]]; try discriminate E; destruct b; try discriminate E. inversion HA; subst. inv_ok E.
      match goal with V : v_arg _ _ _ = Ok _ |- _ => apply (names_arg _ _ H1 V n) end. apply names_a1. exact Hn. }
    destruct (str_eqb name (lit "format")).
    { destruct l as [|a l]; try discriminate E; destruct a; try discriminate E. inversion HA; subst. inv_ok E. eapply names_args; eassumption. }
    destruct (str_eqb name (lit "join")); [inv_ok E; change (In n (rnames_l (map RRef a))) in Hn; rewrite rnames_refs in Hn; eapply names_subs; eassumption|].
    destruct (_ || _).
    { destruct (negb _); [discriminate E|]. destruct l as [|a [|]]; try discriminate E. inversion HA; subst. inv_ok E.
      match goal with V : v_arg _ _ _ = Ok _ |- _ => apply (names_arg _ _ H1 V n) end. apply names_a1. exact Hn. }
    destruct (str_eqb name (lit "safe")).
    { destruct l as [|a [|]]; try discriminate E. inversion HA; subst. inv_ok E. match goal with V : v_arg _ _ _ = Ok ?y |- _ => destruct y as [[b c] r]; exact (names_arg _ _ H1 V n Hn) end. }
    inv_ok E. eapply names_args; eassumption.
  Qed.
  Definition callee_of (x : str) : rexpr := match ch_resolve m x with Some r => r | None => RGrp (RRef (RField self (norm x))) end.
  Definition name_ok (x : str) : Prop := names_in (visit_var m x) /\ names_in (callee_of x).
  Theorem visit_names e : plain e = true -> (forall x, In x (fv e) -> x <> lit "loop" -> name_ok x) -> names_ok e.
  Proof.
    assert (LA : forall l, Forall (fun e => plain e = true -> (forall x, In x (fv e) -> x <> lit "loop" -> name_ok x) -> names_ok e) l ->
       forallb plain l = true -> (forall x, In x (fvs l) -> x <> lit "loop" -> name_ok x) -> Forall names_ok l).
    { induction 1 as [|a l He Hl IH]; intros Hp Hf; cbn in Hp; constructor; [apply He|apply IH]; try (apply andb_prop in Hp; tauto);
        intros x Hx; apply Hf; cbn; apply in_or_app; auto. }
    induction e using expr_ind'; intros Hp Hf; cbn [plain] in Hp.
    - intros r wr E n Hn. injection E as <- <-. destruct Hn.
    - intros r wr E n Hn. injection E as <- <-. destruct Hn.
    - intros r wr E n Hn. injection E as <- <-. destruct Hn.
    - intros r wr E n Hn. injection E as <- <-. destruct Hn.
    - intros r wr E n Hn. injection E as <- <-. destruct (str_eqb s (lit "self")) eqn:Es.
      + unfold visit_var in Hn. rewrite Es in Hn. destruct Hn as [<-|[]]. apply str_eqb_eq in Es. subst. exact P_self.
      + eapply (proj1 (Hf s ltac:(cbn [fv]; rewrite Es; left; reflexivity) ltac:(intros ->; vm_compute in Hp; discriminate Hp))). exact Hn.
    - intros r wr E n Hn. injection E as <- <-. destruct Hn.
    - intros r wr E n Hn. rewrite visit_arr in E. inv_ok E. eapply names_subs; [|eassumption|exact Hn]. apply LA; assumption.
    - intros r wr E n Hn. apply andb_prop in Hp as [_ Hp]. cbn [visit_expr] in E. destruct (var_loop e).
      + change (v_plain (loop_attr x) = Ok (r, wr)) in E. inv_ok E. unfold loop_attr in E.
        repeat match type of E with (if ?c then _ else _) = _ => destruct c end; try discriminate E; inv_ok E; cbn in Hn; destruct Hn as [<-|[]]; exact P_item.
      + change (v_plain (let! r0 := v_sub inp m e in Ok (RField r0 (norm x))) = Ok (r, wr)) in E. inv_ok E.
        exact (names_sub _ _ (IHe Hp Hf) E0 n Hn).
    - intros r wr E n Hn. apply andb_prop in Hp as [H1 H2].
      change (v_plain (let! r := v_sub inp m e1 in let! k := v_sub inp m e2 in Ok (RRef (RIndex r k))) = Ok (r, wr)) in E. inv_ok E.
      cbn [rnames] in Hn. apply in_app_or in Hn as [Hn|Hn].
      + refine (names_sub _ _ (IHe1 H1 _) E0 n Hn). intros. apply Hf; [apply in_or_app; auto|assumption].
      + refine (names_sub _ _ (IHe2 H2 _) E1 n Hn). intros. apply Hf; [apply in_or_app; auto|assumption].
    - apply names_filter. apply LA; assumption.
    - intros r wr E n' Hn. change (v_plain (v_sub inp m e) = Ok (r, wr)) in E. inv_ok E. exact (names_sub _ _ (IHe Hp Hf) E n' Hn).
    - intros r wr E n Hn. change (v_plain (let! r := v_sub inp m e in Ok (RUn o r)) = Ok (r, wr)) in E. inv_ok E. exact (names_sub _ _ (IHe Hp Hf) E0 n Hn).
    - intros r wr E n Hn. apply andb_prop in Hp as [H1 H2].
      change (v_plain (let! a := v_sub inp m e1 in let! b := v_sub inp m e2 in Ok (RBin o a b)) = Ok (r, wr)) in E. inv_ok E.
      cbn [rnames] in Hn. apply in_app_or in Hn as [Hn|Hn].
      + refine (names_sub _ _ (IHe1 H1 _) E0 n Hn). intros. apply Hf; [apply in_or_app; auto|assumption].
      + refine (names_sub _ _ (IHe2 H2 _) E1 n Hn). intros. apply Hf; [apply in_or_app; auto|assumption].
    - intros r' wr E n Hn. apply andb_prop in Hp as [H1 H2].
      change (v_plain (let! a := v_opt inp m l in let! b := v_opt inp m r in Ok (RRange o a b)) = Ok (r', wr)) in E. inv_ok E.
      cbn [rnames] in Hn. apply in_app_or in Hn as [Hn|Hn].
      + destruct l as [e1|]; cbn [v_opt] in E0; inv_ok E0; [|destruct Hn]. match goal with V : v_sub _ _ e1 = Ok _ |- _ => refine (names_sub _ _ (H H1 _) V n Hn) end. intros. apply Hf; [cbn; apply in_or_app; auto|assumption].
      + destruct r as [e1|]; cbn [v_opt] in E1; inv_ok E1; [|destruct Hn]. match goal with V : v_sub _ _ e1 = Ok _ |- _ => refine (names_sub _ _ (H0 H2 _) V n Hn) end. intros. apply Hf; [cbn; apply in_or_app; auto|assumption].
    - intros r wr E n Hn. change (v_plain (let! r := v_sub inp m e in Ok (RGrp r)) = Ok (r, wr)) in E. inv_ok E. exact (names_sub _ _ (IHe Hp Hf) E0 n Hn).
    - intros r wr E n Hn. rewrite visit_tuple in E. inv_ok E. eapply names_subs; [|eassumption|exact Hn]. apply LA; assumption.
    - intros r wr E n Hn. apply andb_prop in Hp as [H1 H2]. rewrite visit_call in E.
      assert (AL : Forall names_ok l) by (apply LA; [assumption|assumption|]; intros; apply Hf; [cbn; apply in_or_app; auto|assumption]).
      assert (AE : plain e = true -> names_ok e) by (intros P1; apply IHe; [exact P1|]; intros; apply Hf; [cbn; apply in_or_app; auto|assumption]).
      assert (Gen : plain e = true -> v_plain (let! r := v_sub inp m e in let! rs := v_args inp m l in Ok (RCall r rs)) = Ok (r, wr) -> P n).
      { intros Pe E'. inv_ok E'. cbn [rnames] in Hn. apply in_app_or in Hn as [Hn|Hn]; [exact (names_sub _ _ (AE Pe) E0 n Hn)|exact (names_args l AL _ E1 n Hn)]. }
      destruct e; try (exact (Gen H1 E)); [| |discriminate H1].
      + cbv zeta in E. inv_ok E. cbn [rnames] in Hn. apply in_app_or in Hn as [Hn|Hn]; [|exact (names_args l AL _ E0 n Hn)].
        assert (Hs : str_eqb s (lit "self") = false).
        { apply str_eqb_neq. intros ->. vm_compute in H1. discriminate H1. }
        eapply (proj2 (Hf s ltac:(cbn [fv]; rewrite Hs; left; reflexivity) ltac:(intros ->; vm_compute in H1; discriminate H1))). exact Hn.
      + destruct (match e with Var x => str_eqb x (lit "loop") | _ => false end) eqn:EL.
        * destruct e; try discriminate EL. rewrite EL in E. destruct (str_eqb name (lit "cycle")); [|discriminate E].
          destruct l as [|a [|]]; [discriminate E| |destruct a; try discriminate E; match type of E with (match ?x with _ => _ end) = _ => destruct x; discriminate E end].
          assert (E' : v_plain (let! r := v_sub inp m a in Ok (RCycle r)) = Ok (r, wr)).
          { destruct a; try exact E. match type of E with (match ?x with _ => _ end) = _ => destruct x; [discriminate E|exact E] end. }
          clear E. inv_ok E'. inversion AL; subst. destruct Hn as [<-|Hn]; [exact P_item|]. eapply names_sub; eassumption.
        * apply (Gen H1). destruct e; try exact E. rewrite EL in E. exact E.
    - intros r wr E n Hn. injection E as <- <-. destruct Hn.
    - intros r wr E n Hn. change (v_plain (let! r := v_sub inp m e in Ok (RTry r)) = Ok (r, wr)) in E. inv_ok E. exact (names_sub _ _ (IHe Hp Hf) E0 n Hn).
    - discriminate Hp.
  Qed.
End Names.

(** ** The filter of a filter block *)
Section Insert.
  Variables (x : str) (R Q : expr -> Prop).
  Hypothesis R_args : forall n l, R (Filter n l) -> Forall R l.
  Hypothesis R_Q : forall e, R e -> Q e.
  Hypothesis Q_gen : Q (Generated x).
  Hypothesis Q_filter : forall n l, Forall Q l -> Q (Filter n l).
  Lemma insert_ok e : R e -> Q (insert_in_filter x e).
  Proof.
    induction e using expr_ind'; intros Hr; try (apply R_Q; exact Hr).
    pose proof (R_args _ _ Hr) as HR. destruct l as [|a l]; cbn [insert_in_filter].
    - apply Q_filter. constructor; [exact Q_gen|constructor].
    - assert (HL : Forall Q (a :: l)) by (eapply Forall_impl; [exact R_Q|exact HR]). inversion H; subst. inversion HR; subst. inversion HL; subst.
      destruct a; try (apply Q_filter; constructor; [exact Q_gen|exact HL]). apply Q_filter. constructor; auto.
  Qed.
End Insert.
Section InsertTeval.
  Variables (w : world) (inp : ginput) (te : env w) (st : store w) (lp : lpos) (gen : out (V w)).
  Notation tev := (teval w inp te st lp gen).
  Definition not_str (e : expr) : bool := match e with StrLit _ => false | _ => true end.
  Lemma filter_head_eq n a b l : tev a = tev b -> not_str a = true -> not_str b = true -> tev (Filter n (a :: l)) = tev (Filter n (b :: l)).
  Proof.
    intros E Ha Hb. cbn [teval out_map]. rewrite E.
    assert (F : forall (A B : out (V w)), (match a with StrLit f => A | _ => B end) = B) by (intros; destruct a; try reflexivity; discriminate Ha).
    assert (F' : forall (A B : out (V w)), (match b with StrLit f => A | _ => B end) = B) by (intros; destruct b; try reflexivity; discriminate Hb).
    destruct a; try discriminate Ha; destruct b; try discriminate Hb; reflexivity.
  Qed.
  Lemma insert_teval x y e : tev (insert_in_filter x e) = tev (insert_in_filter y e).
  Proof.
    induction e using expr_ind'; try reflexivity. destruct l as [|a l]; cbn [insert_in_filter].
    - apply filter_head_eq; reflexivity.
    - inversion H; subst. destruct a; try (apply filter_head_eq; reflexivity).
      apply filter_head_eq; [assumption| |]; match goal with |- not_str (insert_in_filter _ (Filter _ ?l)) = _ => destruct l as [|c ?]; [reflexivity|destruct c; reflexivity] end.
  Qed.
  Lemma insert_opts x n l : opts_out (insert_in_filter x (Filter n l)) = opts_out (Filter n l).
  Proof. destruct l as [|a l]; [reflexivity|]. destruct a; reflexivity. Qed.
End InsertTeval.

(** ** Names *)
Definition is_fb (k : str) : bool := starts_with (lit "__filter_block") k.
Lemma good_inv x : good x = true -> no_raw x = true /\ mem_chr 46 x = false /\ is_fb x = false /\ mem_str x reserved = false.
Proof. unfold good, is_fb. intros H. repeat (apply andb_prop in H as [H ?]). rewrite negb_true_iff in *. auto. Qed.
Lemma no_raw_hash x : no_raw x = true -> no_hash x.
Proof. unfold no_raw. intros H Hi. apply mem_chr_In in Hi. rewrite Hi in H. discriminate H. Qed.
Lemma good_hash x : good x = true -> no_hash x.
Proof. intros H. apply no_raw_hash. apply good_inv in H. tauto. Qed.
Lemma good_inj x y : good x = true -> good y = true -> norm x = norm y -> x = y.
Proof. intros Hx Hy. apply normalize_inj; apply good_hash; assumption. Qed.
Lemma good_reserved x : good x = true -> ~ In x reserved.
Proof. intros H Hi. apply mem_str_In in Hi. apply good_inv in H as (_ & _ & _ & H). congruence. Qed.
Lemma norm_cases x : norm x = x \/ (In x rust_keywords /\ norm x = lit "r#" ++ x).
Proof. destruct (in_rust_keywords_dec x) as [K|K]; [right; split; [exact K|apply normalize_keyword; exact K]|left; apply normalize_other; exact K]. Qed.
Lemma norm_reserved x y : good x = true -> In y reserved -> norm x <> y.
Proof.
  intros H Hy E. destruct (norm_cases x) as [N|[_ N]]; rewrite N in E.
  - subst. exact (good_reserved _ H Hy).
  - subst y. cbn in Hy. repeat (destruct Hy as [Hy|Hy]; [discriminate Hy|]). exact Hy.
Qed.
Lemma norm_fb x : good x = true -> is_fb (norm x) = false.
Proof.
  intros H. destruct (norm_cases x) as [N|[_ N]]; rewrite N.
  - apply good_inv in H. tauto.
  - reflexivity.
Qed.
Lemma fb_reserved k y : is_fb k = true -> In y reserved -> k <> y.
Proof. intros H Hy ->. cbn in Hy. repeat (destruct Hy as [<-|Hy]; [discriminate H|]). exact Hy. Qed.
Lemma norm_dot x : good x = true -> ~ In 46 (norm x).
Proof.
  intros H. apply good_inv in H as (_ & H & _ & _).
  assert (Hx : ~ In 46 x) by (intros Hi; apply mem_chr_In in Hi; congruence).
  destruct (norm_cases x) as [N|[_ N]]; rewrite N; [exact Hx|]. cbn. intros [E|[E|E]]; [discriminate E|discriminate E|exact (Hx E)].
Qed.
Lemma fb_prefix k : is_fb k = true -> exists r, k = lit "__filter_block" ++ r.
Proof. unfold is_fb, starts_with. destruct (strip_prefix _ k) eqn:E; [|discriminate]. apply strip_prefix_Some in E. eauto. Qed.
Lemma fb_name_is id : is_fb (filter_block_name id) = true.
Proof. unfold filter_block_name, is_fb, starts_with. destruct (strip_prefix _ _) eqn:E; [reflexivity|]. exfalso. pose proof (proj2 (strip_prefix_Some (lit "__filter_block") _ (nat_str id)) eq_refl). congruence. Qed.
Lemma norm_idem_fb id : norm (filter_block_name id) = filter_block_name id.
Proof. unfold filter_block_name, normalize_identifier. change (length (lit "__filter_block" ++ nat_str id)) with (14 + length (nat_str id))%nat. reflexivity. Qed.
Lemma norm_under x : str_eqb (norm x) (lit "_") = str_eqb x (lit "_").
Proof.
  destruct (norm_cases x) as [N|[K N]]; rewrite N; [reflexivity|]. symmetry. apply str_eqb_neq. intros ->. vm_compute in N. discriminate N.
Qed.

(** ** Association lists *)
Lemma get_app {A} k (l l' : list (str * A)) : get k (l ++ l') = match get k l with Some v => Some v | None => get k l' end.
Proof. induction l as [|[k' v] l IH]; cbn; [reflexivity|]. destruct (str_eqb k k'); [reflexivity|exact IH]. Qed.
Lemma get_notin {A} k (l : list (str * A)) : ~ In k (map fst l) -> get k l = None.
Proof. induction l as [|[k' v] l IH]; cbn; [reflexivity|]. intros H. rewrite (proj2 (str_eqb_neq _ _)); [apply IH|]; intuition congruence. Qed.
Lemma get_in {A} k (l : list (str * A)) : In k (map fst l) -> exists v, get k l = Some v /\ In (k, v) l.
Proof.
  induction l as [|[k' v] l IH]; cbn; [tauto|]. intros H. destruct (str_eqb k k') eqn:E.
  - apply str_eqb_eq in E. subst. eauto.
  - apply str_eqb_neq in E. destruct H as [H|H]; [congruence|]. destruct (IH H) as (v' & H1 & H2). eauto.
Qed.
Definition norm_fst {A} (x : str * A) : str * A := (norm (fst x), snd x).
Lemma get_norm {A} k (l : list (str * A)) : good k = true -> Forall (fun x => good (fst x) = true) l -> get (norm k) (map norm_fst l) = get k l.
Proof.
  intros Hk. induction 1 as [|[k' v] l Hx Hl IH]; [reflexivity|]. cbn [map norm_fst get fst snd] in *. rewrite IH.
  destruct (str_eqb k k') eqn:E.
  - apply str_eqb_eq in E. subst. rewrite str_eqb_refl. reflexivity.
  - rewrite (proj2 (str_eqb_neq _ _)); [reflexivity|]. intros H. apply good_inj in H; auto. subst. rewrite str_eqb_refl in E. discriminate E.
Qed.
Lemma bind_vals_app w bs (en : env w) : bind_vals w bs en = bind_vals w bs [] ++ en.
Proof. unfold bind_vals. rewrite app_nil_r. reflexivity. Qed.
Lemma bind_vals_keys w bs k : In k (map fst (bind_vals w bs [])) <-> In k (map fst bs).
Proof. unfold bind_vals. rewrite app_nil_r, map_rev, <- in_rev, map_map. reflexivity. Qed.
Lemma bind_vals_norm w bs : bind_vals w (map norm_fst bs) [] = map norm_fst (bind_vals w bs []).
Proof. unfold bind_vals. rewrite !app_nil_r, map_rev, !map_map. reflexivity. Qed.
Lemma lookup_bind_other w bs en k : ~ In k (map fst bs) -> lookup w (bind_vals w bs en) k = lookup w en k.
Proof. intros H. unfold lookup. rewrite bind_vals_app, get_app, get_notin; [reflexivity|]. rewrite bind_vals_keys. exact H. Qed.
Lemma bind_vals_val w bs k s : In (k, s) (bind_vals w bs []) -> exists v, s = Val w v /\ In (k, v) bs.
Proof. unfold bind_vals. rewrite app_nil_r. rewrite <- in_rev. intros H. apply in_map_iff in H as ([k' v] & E & H). injection E as <- <-. eauto. Qed.
Lemma lookup_bind_in w bs te re k : Forall (fun x => good (fst x) = true) bs -> In k (map fst bs) ->
  exists v, lookup w (bind_vals w bs te) k = Some (Val w v) /\ lookup w (bind_vals w (map norm_fst bs) re) (norm k) = Some (Val w v) /\ In (k, v) bs.
Proof.
  intros HG Hk. unfold lookup. rewrite (bind_vals_app w bs te), (bind_vals_app w (map norm_fst bs) re), !get_app, bind_vals_norm.
  destruct (get_in k (bind_vals w bs [])) as (s & H1 & H2); [apply bind_vals_keys; exact Hk|].
  apply bind_vals_val in H2 as (v & -> & Hv). exists v. rewrite H1. split; [reflexivity|]. split; [|exact Hv].
  rewrite get_norm; [rewrite H1; reflexivity| |].
  - rewrite Forall_forall in HG. apply in_map_iff in Hk as (y & <- & Hy). auto.
  - unfold bind_vals. rewrite app_nil_r. apply Forall_rev. apply Forall_map. exact HG.
Qed.
Lemma get_bind_vars x b xs G : get x (bind_vars b xs G) = if mem_str x xs then Some b else get x G.
Proof.
  unfold bind_vars. rewrite get_app.
  destruct (mem_str x xs) eqn:E.
  - apply mem_str_In in E. destruct (get_in x (rev (map (fun x => (x, b)) xs))) as (v & H1 & H2).
    + rewrite map_rev, <- in_rev, map_map. cbn. rewrite map_id. exact E.
    + rewrite H1. apply in_rev in H2. apply in_map_iff in H2 as (y & H2 & _). congruence.
  - rewrite get_notin; [reflexivity|]. rewrite map_rev, <- in_rev, map_map. cbn. rewrite map_id. intros H. apply mem_str_In in H. congruence.
Qed.

(** ** Scopes *)
Lemma ch_get_push m k : ch_get (ch_push m) k = ch_get m k.
Proof. destruct m. reflexivity. Qed.
Lemma ch_get_parent m k : ch_get (ch_with_parent m) k = ch_get m k.
Proof. reflexivity. Qed.
Lemma ch_get_empty k : ch_get ch_empty k = None.
Proof. reflexivity. Qed.
Lemma ch_get_insert m k v m' k' : ch_insert m k v = Ok m' -> ch_get m' k' = if str_eqb k' k then Some v else ch_get m k'.
Proof. destruct m as [p [|s ss]]; [discriminate|]. intros H. injection H as <-. cbn. destruct (str_eqb k' k); reflexivity. Qed.
Lemma ch_get_insert_all v ks : forall m m' k, insert_all m v ks = Ok m' -> ch_get m' k = if mem_str k ks then Some v else ch_get m k.
Proof.
  induction ks as [|k0 ks IH]; intros m m' k H; cbn [insert_all] in H; [injection H as <-; reflexivity|].
  apply rbind_Ok in H as (m1 & H1 & H2). rewrite (IH _ _ _ H2), (ch_get_insert _ _ _ _ _ H1). cbn [mem_str].
  destruct (str_eqb k k0), (mem_str k ks); reflexivity.
Qed.
(** Only the innermost scope has grown. *)
Definition grows (m m' : chain) : Prop := m' = m \/ exists p s s' ss, m = Chain p (s :: ss) /\ m' = Chain p (s' :: ss).
Lemma grows_refl m : grows m m.
Proof. left. reflexivity. Qed.
Lemma grows_trans a b c : grows a b -> grows b c -> grows a c.
Proof.
  intros [->|(p & s & s' & ss & -> & ->)] H; [exact H|]. destruct H as [->|(p' & t & t' & ss' & E & ->)].
  - right. exists p, s, s', ss. auto.
  - injection E as <- <- <-. right. exists p, s, t', ss. auto.
Qed.
Lemma grows_insert m k v m' : ch_insert m k v = Ok m' -> grows m m'.
Proof. destruct m as [p [|s ss]]; [discriminate|]. intros H. injection H as <-. right. exists p, s, ((k, v) :: s), ss. auto. Qed.
Lemma grows_insert_all v ks : forall m m', insert_all m v ks = Ok m' -> grows m m'.
Proof.
  induction ks as [|k ks IH]; intros m m' H; cbn [insert_all] in H; [injection H as <-; apply grows_refl|].
  apply rbind_Ok in H as (m1 & H1 & H2). eapply grows_trans; [eapply grows_insert; eassumption|eauto].
Qed.
Lemma grows_target m b t p m' : visit_target m b t = Ok (p, m') -> grows m m' /\ p = norm_target t /\
  insert_all m (if b then m_initialized else m_default) (target_names t) = Ok m'.
Proof. unfold visit_target. intros H. apply rbind_Ok in H as (m1 & H1 & H2). injection H2 as <- <-. split; [eapply grows_insert_all; eassumption|auto]. Qed.
Lemma pop_grows m m' m'' : grows (ch_push m) m' -> ch_pop m' = Ok m'' -> m'' = m.
Proof.
  destruct m as [p ss]. cbn [ch_push]. intros [->|(q & s & s' & ss' & E & ->)] H.
  - destruct ss as [|s ss]; [discriminate H|]. cbn in H. injection H as <-. reflexivity.
  - injection E as <- <- <-. destruct ss as [|s0 ss]; [discriminate H|]. cbn in H. injection H as <-. reflexivity.
Qed.

(** ** Patterns *)
Section TargetInd.
  Variable P : target -> Prop.
  Hypothesis HName : forall s, P (TName s).
  Hypothesis HTuple : forall p l, Forall P l -> P (TTuple p l).
  Hypothesis HStruct : forall p l, Forall (fun x => P (snd x)) l -> P (TStruct p l).
  Hypothesis HNum : forall s, P (TNumLit s).
  Hypothesis HStr : forall s, P (TStrLit s).
  Hypothesis HChar : forall s, P (TCharLit s).
  Hypothesis HBool : forall s, P (TBoolLit s).
  Hypothesis HPath : forall p, P (TPath p).
  Hypothesis HOr : forall l, Forall P l -> P (TOrChain l).
  Fixpoint target_ind' (t : target) : P t :=
    let lst := fix lst (l : list target) : Forall P l :=
      match l with [] => Forall_nil _ | t :: l' => Forall_cons _ (target_ind' t) (lst l') end in
    match t with
    | TName s => HName s
    | TTuple p l => HTuple p l (lst l)
    | TStruct p l => HStruct p l ((fix go (l : list (str * target)) : Forall (fun x => P (snd x)) l :=
        match l with [] => Forall_nil _ | (k, t) :: l' => Forall_cons (k, t) (target_ind' t) (go l') end) l)
    | TNumLit s => HNum s | TStrLit s => HStr s | TCharLit s => HChar s | TBoolLit s => HBool s | TPath p => HPath p
    | TOrChain l => HOr l (lst l)
    end.
End TargetInd.

Lemma target_names_norm t : target_names t = map norm (pattern_names t).
Proof.
  induction t using target_ind'; try reflexivity.
  - cbn [target_names pattern_names]. destruct (str_eqb s (lit "_")); reflexivity.
  - cbn [target_names pattern_names]. induction H as [|t l Ht Hl IH]; [reflexivity|]. cbn [map concat]. rewrite Ht, IH, map_app. reflexivity.
  - cbn [target_names pattern_names]. induction H as [|[k t] l Ht Hl IH]; [reflexivity|]. cbn [map concat snd] in *. rewrite Ht, IH, map_app. reflexivity.
  - cbn [target_names pattern_names]. induction H as [|t l Ht Hl IH]; [reflexivity|]. cbn [map concat]. rewrite Ht, IH, map_app. reflexivity.
Qed.
Lemma pattern_names_norm t : pattern_names (norm_target t) = map norm (pattern_names t).
Proof.
  induction t using target_ind'; try reflexivity.
  - cbn [norm_target pattern_names]. destruct (str_eqb s (lit "_")) eqn:E; [rewrite E; reflexivity|]. rewrite norm_under, E. reflexivity.
  - cbn [norm_target pattern_names]. induction H as [|t l Ht Hl IH]; [reflexivity|]. cbn [map concat]. rewrite Ht, IH, map_app. reflexivity.
  - cbn [norm_target pattern_names]. induction H as [|[k t] l Ht Hl IH]; [reflexivity|]. cbn [map concat snd fst] in *. rewrite Ht, IH, map_app. reflexivity.
  - cbn [norm_target pattern_names]. induction H as [|t l Ht Hl IH]; [reflexivity|]. cbn [map concat]. rewrite Ht, IH, map_app. reflexivity.
Qed.

Section Pmatch.
  Variable w : world.
  Notation pm := (pmatch w).
  Lemma unraw_no_raw x : no_raw x = true -> unraw x = x.
  Proof.
    intros H. apply no_raw_hash in H. unfold unraw. destruct (strip_prefix (lit "r#") x) eqn:E; [|reflexivity].
    apply strip_prefix_Some in E. exfalso. apply H. rewrite E. right. left. reflexivity.
  Qed.
  Theorem pmatch_norm t : plain_target t = true -> forall v, pm (norm_target t) v = option_map (map norm_fst) (pm t v).
  Proof.
    induction t using target_ind'; intros Hp v; cbn [plain_target] in Hp; cbn [norm_target pmatch];
      try match goal with |- (if ?c then _ else _) = option_map _ (if ?c then _ else _) => destruct c; reflexivity end.
    - destruct (str_eqb s (lit "_")) eqn:E; [rewrite E; reflexivity|]. rewrite norm_under, E. reflexivity.
    - rewrite map_length. destruct (w_untuple w p (length l) v) as [vs|]; [|reflexivity]. cbn [obind].
      revert vs. induction H as [|t l Ht Hl IH]; intros vs; [destruct vs; reflexivity|]. cbn [forallb] in Hp. apply andb_prop in Hp as [H1 H2].
      cbn [map match_all]. destruct vs as [|v0 vs]; [reflexivity|]. rewrite Ht by exact H1. destruct (pm t v0) as [b|]; [|reflexivity].
      cbn [obind option_map]. fold (match_all w pm). rewrite (IH H2). destruct (match_all w pm l vs) as [bs|]; [|reflexivity].
      cbn [obind option_map]. rewrite map_app. reflexivity.
    - assert (En : map (fun x => unraw (fst x)) (map (fun x => (norm (fst x), norm_target (snd x))) l) = map (fun x : str * target => unraw (fst x)) l).
      { clear H. induction l as [|[k t] l IH]; [reflexivity|]. cbn [forallb fst snd] in Hp. apply andb_prop in Hp as [H1 H2]. apply andb_prop in H1 as [H1 _].
        cbn [map fst]. rewrite (IH H2), (unraw_norm k) by exact H1. rewrite unraw_no_raw by exact H1. reflexivity. }
      rewrite En. destruct (w_unstruct w p _ v) as [vs|]; [|reflexivity]. cbn [obind]. clear En.
      revert vs. induction H as [|[k t] l Ht Hl IH]; intros vs; [destruct vs; reflexivity|]. cbn [forallb fst snd] in *.
      apply andb_prop in Hp as [H1 H2]. apply andb_prop in H1 as [_ H1].
      cbn [map match_fields]. destruct vs as [|v0 vs]; [reflexivity|]. rewrite Ht by exact H1. destruct (pm t v0) as [b|]; [|reflexivity].
      cbn [obind option_map]. fold (match_fields w pm). rewrite (IH H2). destruct (match_fields w pm l vs) as [bs|]; [|reflexivity].
      cbn [obind option_map]. rewrite map_app. reflexivity.
    - apply andb_prop in Hp as [Hp _]. induction H as [|t l Ht Hl IH]; [reflexivity|]. cbn [forallb] in Hp. apply andb_prop in Hp as [H1 H2].
      cbn [map match_first]. rewrite Ht by exact H1. destruct (pm t v) as [b|]; [reflexivity|]. apply IH. exact H2.
  Qed.
  (** A successful match binds the variables of the pattern. *)
  Theorem pmatch_names t : plain_target t = true -> forall v bs, pm t v = Some bs -> forall x, In x (map fst bs) <-> In x (pattern_names t).
  Proof.
    induction t using target_ind'; intros Hp v bs E x; cbn [plain_target] in Hp; cbn [pmatch] in E; cbn [pattern_names];
      try (match type of E with (if ?c then _ else _) = _ => destruct c end; try discriminate E; injection E as <-; reflexivity).
    - destruct (w_untuple w p (length l) v) as [vs|]; [|discriminate E]. cbn [obind] in E.
      revert vs bs E. induction H as [|t l Ht Hl IH]; intros vs bs E; [destruct vs; [|discriminate E]; injection E as <-; reflexivity|].
      cbn [forallb] in Hp. apply andb_prop in Hp as [H1 H2]. cbn [match_all] in E. destruct vs as [|v0 vs]; [discriminate E|].
      destruct (pm t v0) as [b|] eqn:Eb; [|discriminate E]. cbn [obind] in E. fold (match_all w pm) in E.
      destruct (match_all w pm l vs) as [bs'|] eqn:Ebs; [|discriminate E]. cbn [obind] in E. injection E as <-.
      cbn [map concat]. rewrite map_app, !in_app_iff, (Ht H1 _ _ Eb x), (IH H2 vs bs' Ebs). reflexivity.
    - destruct (w_unstruct w p _ v) as [vs|]; [|discriminate E]. cbn [obind] in E.
      revert vs bs E. induction H as [|[k t] l Ht Hl IH]; intros vs bs E; [destruct vs; [|discriminate E]; injection E as <-; reflexivity|].
      cbn [forallb fst snd] in *. apply andb_prop in Hp as [H1 H2]. apply andb_prop in H1 as [_ H1]. cbn [match_fields] in E. destruct vs as [|v0 vs]; [discriminate E|].
      destruct (pm t v0) as [b|] eqn:Eb; [|discriminate E]. cbn [obind] in E. fold (match_fields w pm) in E.
      destruct (match_fields w pm l vs) as [bs'|] eqn:Ebs; [|discriminate E]. cbn [obind] in E. injection E as <-.
      cbn [map concat snd]. rewrite map_app, !in_app_iff, (Ht H1 _ _ Eb x), (IH H2 vs bs' Ebs). reflexivity.
    - apply andb_prop in Hp as [Hp Hs].
      assert (Same : forall a, In a l -> forall y, In y (concat (map pattern_names l)) <-> In y (pattern_names a)).
      { destruct l as [|t0 l]; [intros a []|]. cbn [map] in Hs. rewrite forallb_forall in Hs.
        assert (S1 : forall a, In a (t0 :: l) -> pattern_names a = pattern_names t0).
        { intros a [->|Ha]; [reflexivity|]. symmetry. apply strs_eqb_eq. apply Hs. apply in_map. exact Ha. }
        intros a Ha y. rewrite (S1 a Ha). split.
        - intros Hy. apply in_concat in Hy as (z & Hz & Hy). apply in_map_iff in Hz as (b & <- & Hb). rewrite (S1 b Hb) in Hy. exact Hy.
        - intros Hy. cbn [map concat]. apply in_or_app. left. exact Hy. }
      assert (Ex : exists a, In a l /\ pm a v = Some bs).
      { clear - E. induction l as [|a l IH]; [discriminate E|]. cbn [match_first] in E. destruct (pm a v) as [b|] eqn:Eb.
        - injection E as <-. exists a. split; [left; reflexivity|exact Eb].
        - destruct (IH E) as (a' & H1 & H2). exists a'. split; [right; exact H1|exact H2]. }
      destruct Ex as (a & Ha & Eb). rewrite (Same a Ha). rewrite Forall_forall in H. rewrite forallb_forall in Hp. exact (H a Ha (Hp a Ha) v bs Eb x).
  Qed.
End Pmatch.
