(** * The generated expression has the value of the template expression. *)
From Coq Require Import ZArith ZifyBool ZifyNat ZifyN.
From Verif Require Import Base Ws Ast Ident IdentFacts GenExpr Heritage Gen Sem RefSem RexprFacts FlushFacts Scoped Shipped ShippedFacts.
Local Open Scope N_scope.

(** ** Induction on expressions *)
Section ExprInd.
  Variable P : expr -> Prop.
  Definition POptE (o : option expr) := match o with Some e => P e | None => True end.
  Hypothesis HBool : forall s, P (BoolLit s).
  Hypothesis HNum : forall s, P (NumLit s).
  Hypothesis HStr : forall s, P (StrLit s).
  Hypothesis HChar : forall s, P (CharLit s).
  Hypothesis HVar : forall s, P (Var s).
  Hypothesis HPath : forall l, P (Path l).
  Hypothesis HArr : forall l, Forall P l -> P (Arr l).
  Hypothesis HAttr : forall e x, P e -> P (Attr e x).
  Hypothesis HIndex : forall a b, P a -> P b -> P (Index a b).
  Hypothesis HFilter : forall n l, Forall P l -> P (Filter n l).
  Hypothesis HNamed : forall n e, P e -> P (NamedArgument n e).
  Hypothesis HUn : forall o e, P e -> P (Unary o e).
  Hypothesis HBin : forall o l r, P l -> P r -> P (BinOp o l r).
  Hypothesis HRange : forall o l r, POptE l -> POptE r -> P (Range o l r).
  Hypothesis HGroup : forall e, P e -> P (Group e).
  Hypothesis HTuple : forall l, Forall P l -> P (Tuple l).
  Hypothesis HCall : forall f l, P f -> Forall P l -> P (Call f l).
  Hypothesis HMacro : forall p a, P (RustMacro p a).
  Hypothesis HTry : forall e, P e -> P (Try e).
  Hypothesis HGen : forall s, P (Generated s).
  Fixpoint expr_ind' (e : expr) : P e :=
    let lst := fix lst (l : list expr) : Forall P l :=
      match l with [] => Forall_nil _ | e :: l' => Forall_cons _ (expr_ind' e) (lst l') end in
    let opt o : POptE o := match o with Some e => expr_ind' e | None => I end in
    match e with
    | BoolLit s => HBool s | NumLit s => HNum s | StrLit s => HStr s | CharLit s => HChar s | Var s => HVar s | Path l => HPath l
    | Arr l => HArr l (lst l)
    | Attr e x => HAttr e x (expr_ind' e)
    | Index a b => HIndex a b (expr_ind' a) (expr_ind' b)
    | Filter n l => HFilter n l (lst l)
    | NamedArgument n e => HNamed n e (expr_ind' e)
    | Unary o e => HUn o e (expr_ind' e)
    | BinOp o l r => HBin o l r (expr_ind' l) (expr_ind' r)
    | Range o l r => HRange o l r (opt l) (opt r)
    | Group e => HGroup e (expr_ind' e)
    | Tuple l => HTuple l (lst l)
    | Call f l => HCall f l (expr_ind' f) (lst l)
    | RustMacro p a => HMacro p a
    | Try e => HTry e (expr_ind' e)
    | Generated s => HGen s
    end.
End ExprInd.

(** ** The lists inside an expression *)
Fixpoint fvs (l : list expr) : list str := match l with [] => [] | e :: l' => fv e ++ fvs l' end.
Lemma named_escaper_spec inp x : named_escaper inp x =
  match escaper_for (f_escapers inp) x with Some esc => Ok esc | None => Err (lit "invalid escaper for escape filter") end.
Proof.
  unfold named_escaper. induction (f_escapers inp) as [|[names esc] l IH]; [reflexivity|]. cbn [find escaper_for fst].
  assert (E : mem_str x names = existsb (str_eqb x) names) by (induction names as [|y ns IHn]; [reflexivity|]; cbn [mem_str existsb]; now rewrite IHn).
  rewrite E. destruct (existsb (str_eqb x) names); [reflexivity|]. apply IH.
Qed.
Lemma named_escaper_for inp x esc : named_escaper inp x = Ok esc -> escaper_for (f_escapers inp) x = Some esc.
Proof. rewrite named_escaper_spec. destruct (escaper_for _ _); [now intros [= <-]|discriminate]. Qed.
Lemma feed_insert e : feed e = insert_in_filter [] e.
Proof.
  induction e using expr_ind'; try reflexivity. destruct l as [|a l]; [reflexivity|].
  destruct a; try reflexivity. inversion H; subst. cbn [feed insert_in_filter]. f_equal. f_equal. assumption.
Qed.
Section Lists.
  Variables (inp : ginput) (m : chain).
  Definition v_sub (e : expr) : res rexpr := let! (r, _) := visit_expr inp m e in Ok r.
  Fixpoint v_subs (l : list expr) : res (list rexpr) :=
    match l with [] => Ok [] | e :: l' => let! r := v_sub e in let! rs := v_subs l' in Ok (r :: rs) end.
  Definition v_arg (e : expr) : res (bool * bool * rexpr) := let! r := v_sub e in Ok (negb (is_copyable e), needs_braces e, r).
  Fixpoint v_args (l : list expr) : res (list (bool * bool * rexpr)) :=
    match l with [] => Ok [] | e :: l' => let! r := v_arg e in let! rs := v_args l' in Ok (r :: rs) end.
  Definition v_plain (r : res rexpr) : res (rexpr * wrap) := let! r := r in Ok (r, false).
  Definition v_opt (o : option expr) : res (option rexpr) := match o with None => Ok None | Some e => let! r := v_sub e in Ok (Some r) end.
  Lemma visit_arr l : visit_expr inp m (Arr l) = v_plain (let! rs := v_subs l in Ok (RArr rs)).
  Proof. reflexivity. Qed.
  Lemma visit_tuple l : visit_expr inp m (Tuple l) = v_plain (let! rs := v_subs l in Ok (RTup rs)).
  Proof. reflexivity. Qed.
  Lemma visit_filter name args : visit_expr inp m (Filter name args) =
        if str_eqb name (lit "as_ref") then
          match args with [a] => v_plain (let! r := v_sub a in Ok (RRef r)) | _ => Err (lit "unexpected argument(s) in `as_ref` filter") end
        else if str_eqb name (lit "deref") then
          match args with [a] => v_plain (let! r := v_sub a in Ok (RDeref r)) | _ => Err (lit "unexpected argument(s) in `deref` filter") end
        else if str_eqb name (lit "escape") || str_eqb name (lit "e") then
          match args with
          | [] => Panic
          | [a] => let! r := v_arg a in Ok (REscape (f_escaper inp) r, true)
          | [a; StrLit x] => let! esc := named_escaper inp x in let! r := v_arg a in Ok (REscape esc r, true)
          | [a; _] => Err (lit "invalid escaper type for escape filter")
          | _ => Err (lit "only two arguments allowed to escape filter")
          end
        else if str_eqb name (lit "fmt") then
          match args with
          | [a; StrLit fmt] => v_plain (let! r := v_arg a in Ok (RFormat fmt [r]))
          | _ => Err (lit "use filter fmt like `value|fmt(""{:?}"")`")
          end
        else if str_eqb name (lit "format") then
          match args with
          | StrLit fmt :: l => v_plain (let! rs := v_args l in Ok (RFormat fmt rs))
          | _ => Err (lit "use filter format like `""a={} b={}""|format(a, b)`")
          end
        else if str_eqb name (lit "join") then v_plain (let! rs := v_subs args in Ok (RJoin (map RRef rs)))
        else if str_eqb name (lit "json") || str_eqb name (lit "tojson") then
          if negb (f_json inp) then Err (lit "the `json` filter requires the `serde-json` feature to be enabled")
          else match args with
               | [a] => v_plain (let! r := v_arg a in Ok (RFilter true (lit "json") [r]))
               | _ => Err (lit "unexpected argument(s) in `json` filter")
               end
        else if str_eqb name (lit "safe") then
          match args with
          | [a] => let! r := v_arg a in Ok (RSafe (f_escaper inp) r, true)
          | _ => Err (lit "unexpected argument(s) in `safe` filter")
          end
        else v_plain (let! rs := v_args args in Ok (RFilter (mem_str name shipped) name rs)).
  Proof. rewrite <- shipped_mem. reflexivity. Qed.
  Lemma visit_call f args : visit_expr inp m (Call f args) =
        match f with
        | Attr (Var x) method =>
            if str_eqb x (lit "loop") then
              if str_eqb method (lit "cycle") then
                match args with
                | [Arr []] => Err (lit "loop.cycle(...) cannot use an empty array")
                | [a] => v_plain (let! r := v_sub a in Ok (RCycle r))
                | _ => Err (lit "loop.cycle(...) expects exactly one argument")
                end
              else Err (lit "unknown loop method")
            else v_plain (let! r := v_sub f in let! rs := v_args args in Ok (RCall r rs))
        | Var x =>
            let callee := match ch_resolve m x with
                          | Some r => r
                          | None => RGrp (RRef (RField self (normalize_identifier x)))
                          end in
            v_plain (let! rs := v_args args in Ok (RCall callee rs))
        | _ => v_plain (let! r := v_sub f in let! rs := v_args args in Ok (RCall r rs))
        end.
  Proof. reflexivity. Qed.
  Lemma v_sub_Ok e r : v_sub e = Ok r -> exists wr, visit_expr inp m e = Ok (r, wr).
  Proof. unfold v_sub. destruct (visit_expr inp m e) as [[r' wr]| |]; try discriminate. cbn. intros H. injection H as <-. eauto. Qed.
  Lemma v_plain_Ok r x : v_plain r = Ok x -> exists r', r = Ok r' /\ x = (r', false).
  Proof. unfold v_plain. destruct r; try discriminate. cbn. intros H. injection H as <-. eauto. Qed.
End Lists.

Lemma rbind_Ok {A B} (x : res A) (k : A -> res B) y : rbind x k = Ok y -> exists a, x = Ok a /\ k a = Ok y.
Proof. destruct x; try discriminate. eauto. Qed.
Ltac inv_ok H :=
  repeat match type of H with
  | v_plain _ = Ok _ => let r := fresh "r" in let E := fresh "E" in
      apply v_plain_Ok in H as (r & H & E); first [apply pair_equal_spec in E as [-> ->] | idtac]
  | rbind ?x _ = Ok _ => let a := fresh "a" in let E := fresh "E" in apply rbind_Ok in H as (a & E & H); cbv beta in H;
      try match type of H with (let (_, _) := a in _) = _ => destruct a end
  | Ok _ = Ok _ => injection H; clear H; intros; subst
  end.

Section Agree.
  Variable w : world.
  Hypothesis wok : world_ok w.
  Variable inp : ginput.
  Variable m : chain.
  Variables (te re : env w) (st : store w) (lp : lpos) (gen : out (V w)).
  Notation tev := (teval w inp te st lp gen).
  Notation rev_ := (reval w re st).
  Definition agree (e : expr) : Prop := forall r wr, visit_expr inp m e = Ok (r, wr) -> tev e <> Unset -> rev_ r = tev e.

  Lemma agree_sub e r : agree e -> v_sub inp m e = Ok r -> tev e <> Unset -> rev_ r = tev e.
  Proof. intros H E. apply v_sub_Ok in E as [wr E]. eapply H; eassumption. Qed.
  Lemma obnd_Unset {A B} (x : out A) (k : A -> out B) : obnd x k <> Unset -> x <> Unset.
  Proof. intros H ->. apply H. reflexivity. Qed.

  Ltac inv_args := repeat match goal with E : rbind (v_sub inp m _) _ = Ok _ |- _ => inv_ok E end.
  Ltac use_sub e := match goal with E : v_sub inp m e = Ok ?r, A : agree e |- _ =>
    let N := fresh in assert (N : rev_ r = tev e) by (apply (agree_sub e r A E); eauto using obnd_Unset); rewrite ?N end.
  Ltac one e := cbn [reval teval] in *; use_sub e; try reflexivity.

  Lemma agree_subs l : Forall agree l -> forall rs, v_subs inp m l = Ok rs -> out_map tev l <> Unset -> out_map rev_ rs = out_map tev l.
  Proof.
    induction 1 as [|e l He Hl IH]; intros rs E HU; cbn [v_subs] in E; inv_ok E; [reflexivity|].
    cbn [out_map] in *. use_sub e. destruct (tev e) as [v| |]; try reflexivity. cbn [obnd] in *.
    erewrite IH by eauto using obnd_Unset. reflexivity.
  Qed.
  Definition rargs := out_map (fun a : bool * bool * rexpr => match a with (_, _, e) => rev_ e end).
  Lemma agree_args l : Forall agree l -> forall rs, v_args inp m l = Ok rs -> out_map tev l <> Unset -> rargs rs = out_map tev l.
  Proof.
    induction 1 as [|e l He Hl IH]; intros rs E HU; cbn [v_args] in E; unfold v_arg in E; inv_ok E; [reflexivity|].
    inv_ok E0. unfold rargs in *. cbn [out_map] in *. use_sub e. destruct (tev e) as [v| |]; try reflexivity. cbn [obnd] in *.
    erewrite IH by eauto using obnd_Unset. reflexivity.
  Qed.
  Lemma refs_eval rs : out_map rev_ (map RRef rs) = out_map rev_ rs.
  Proof. induction rs as [|r rs IH]; [reflexivity|]. cbn [map out_map]. rewrite IH. reflexivity. Qed.
  Lemma agree_filter name args : Forall agree args -> agree (Filter name args).
  Proof.
    intros HA r wr E HU. rewrite visit_filter in E. cbn [teval] in *.
    destruct (str_eqb name (lit "as_ref")) eqn:N1.
    { cbn [orb] in *. destruct args as [|a [|]]; try discriminate E. inversion HA; subst. inv_ok E. cbn [reval]. use_sub a. reflexivity. }
    destruct (str_eqb name (lit "deref")) eqn:N2.
    { cbn [orb] in *. destruct args as [|a [|]]; try discriminate E. inversion HA; subst. inv_ok E. cbn [reval]. use_sub a. reflexivity. }
    cbn [orb] in *. destruct (str_eqb name (lit "escape") || str_eqb name (lit "e")) eqn:N3.
    { destruct args as [|a [|b [|c l]]]; try discriminate E.
      - inversion HA; subst. unfold v_arg in E. inv_ok E. inv_args. cbn [reval]. use_sub a. reflexivity.
      - destruct b; try discriminate E. inversion HA; subst. unfold v_arg in E. inv_ok E. inv_args. rewrite (named_escaper_for _ _ _ E0) in *. cbn [reval]. use_sub a. reflexivity.
      - destruct b; discriminate E. }
    destruct (str_eqb name (lit "fmt")) eqn:N4.
    { destruct args as [|a [|b [|c l]]]; try discriminate E; destruct b; try discriminate E. inversion HA; subst. unfold v_arg in E. inv_ok E. inv_args.
      cbn [reval out_map]. use_sub a. destruct (tev a); reflexivity. }
    destruct (str_eqb name (lit "format")) eqn:N5.
    { destruct args as [|a l]; try discriminate E; destruct a; try discriminate E. inversion HA; subst. inv_ok E.
      cbn [reval]. fold rargs. rewrite (agree_args l) by eauto using obnd_Unset. reflexivity. }
    destruct (str_eqb name (lit "join")) eqn:N6.
    { inv_ok E. cbn [reval]. rewrite refs_eval, (agree_subs args) by eauto using obnd_Unset. reflexivity. }
    destruct (str_eqb name (lit "json") || str_eqb name (lit "tojson")) eqn:N7.
    { destruct (negb (f_json inp)); [discriminate E|]. destruct args as [|a [|]]; try discriminate E. inversion HA; subst. unfold v_arg in E. inv_ok E. inv_args.
      cbn [reval out_map]. use_sub a. destruct (tev a); reflexivity. }
    destruct (str_eqb name (lit "safe")) eqn:N8.
    { destruct args as [|a [|]]; try discriminate E. inversion HA; subst. unfold v_arg in E. inv_ok E. inv_args. cbn [reval]. use_sub a. reflexivity. }
    inv_ok E. cbn [reval]. fold rargs. rewrite (agree_args args) by eauto using obnd_Unset. reflexivity.
  Qed.

  Lemma unraw_norm x : no_raw x = true -> unraw (normalize_identifier x) = x.
  Proof.
    intros H. unfold no_raw in H. apply negb_true_iff in H.
    assert (Hx : ~ In 35 x) by (intros Hi; apply mem_chr_In in Hi; congruence).
    destruct (in_rust_keywords_dec x) as [K|K].
    - rewrite normalize_keyword by exact K. reflexivity.
    - rewrite normalize_other by exact K. unfold unraw. destruct (strip_prefix (lit "r#") x) eqn:E; [|reflexivity].
      apply strip_prefix_Some in E. exfalso. apply Hx. rewrite E. right. left. reflexivity.
  Qed.

  (** The loop *)
  Lemma lp_cases : (exists i f l, lp = Some (i, f, l)) \/ lp = None.
  Proof. destruct lp as [[[i f] l]|]; [left; exists i, f, l; reflexivity|right; reflexivity]. Qed.
  Hypothesis Hlp : forall i f l, lp = Some (i, f, l) -> lookup w re (lit "_loop_item") = Some (Val w (w_item w i f l)).
  Lemma read_item i f l : lp = Some (i, f, l) -> rev_ loop_item = Done (w_item w i f l).
  Proof. intros H. apply Hlp in H. unfold loop_item. cbn [reval]. change (str_eqb (lit "_loop_item") (lit "self")) with false. cbv iota.
    unfold read. rewrite H. reflexivity. Qed.
  Lemma agree_loop a r : loop_attr a = Ok r -> loop_value w lp a <> Unset -> rev_ r = loop_value w lp a.
  Proof.
    unfold loop_attr, loop_value. intros E HU. destruct lp_cases as [(i & f & l & L)|L]; [|rewrite L in HU; congruence]. pose proof (read_item i f l L) as R. rewrite L in *.
    destruct (str_eqb a (lit "index")).
    { inv_ok E. cbn [reval]. rewrite R. cbn [obnd]. change (unraw (lit "index")) with (lit "index").
      unfold lazy_bin. change (str_eqb (lit "+") (lit "&&")) with false. change (str_eqb (lit "+") (lit "||")) with false. cbv iota.
      cbn [obnd]. rewrite (ok_index w wok), (ok_succ w wok). reflexivity. }
    destruct (str_eqb a (lit "index0")).
    { inv_ok E. cbn [reval]. rewrite R. cbn [obnd]. change (unraw (lit "index")) with (lit "index"). rewrite (ok_index w wok). reflexivity. }
    destruct (str_eqb a (lit "first")).
    { inv_ok E. cbn [reval]. rewrite R. cbn [obnd]. change (unraw (lit "first")) with (lit "first"). rewrite (ok_first w wok). reflexivity. }
    destruct (str_eqb a (lit "last")).
    { inv_ok E. cbn [reval]. rewrite R. cbn [obnd]. change (unraw (lit "last")) with (lit "last"). rewrite (ok_last w wok). reflexivity. }
    discriminate E.
  Qed.

  (** Variables *)
  Definition var_agree (x : str) : Prop := var_value w te st x <> Unset -> rev_ (visit_var m x) = var_value w te st x.
  Definition is_rfield (r : rexpr) : bool := match r with RField _ _ => true | _ => false end.
  Definition callee (x : str) : rexpr :=
    match ch_resolve m x with Some r => r | None => RGrp (RRef (RField self (normalize_identifier x))) end.
  Definition call_agree (x : str) : Prop :=
    is_rfield (callee x) = false /\ (var_value w te st x <> Unset -> rev_ (callee x) = var_value w te st x).

  Lemma reval_call f l : is_rfield f = false -> rev_ (RCall f l) = let^ v := rev_ f in let^ vs := rargs l in of_opt (w_call w v vs).
  Proof. destruct f; intros H; try reflexivity. discriminate H. Qed.
  Lemma visit_not_field f r wr : match f with Var _ | Attr _ _ | NamedArgument _ _ => false | _ => true end = true ->
    visit_expr inp m f = Ok (r, wr) -> is_rfield r = false.
  Proof.
    destruct f; intros H E; try discriminate H; try (cbn [visit_expr] in E; inv_ok E; reflexivity);
      try (match type of E with visit_expr _ _ ?e = _ => lazymatch e with Filter _ _ => fail | Call _ _ => fail | _ => idtac end end;
           cbn [visit_expr] in E; inv_ok E; inv_ok E0; reflexivity).
    - rewrite visit_filter in E.
      destruct (str_eqb name (lit "as_ref")); [destruct args as [|a [|]]; try discriminate E; inv_ok E; reflexivity|].
      destruct (str_eqb name (lit "deref")); [destruct args as [|a [|]]; try discriminate E; inv_ok E; reflexivity|].
      destruct (str_eqb name (lit "escape") || _).
      { destruct args as [|a [|b [|c l]]]; try discriminate E; [|destruct b; try discriminate E|destruct b; discriminate E]; inv_ok E; reflexivity. }
      destruct (str_eqb name (lit "fmt")).
      { destruct args as [|a [|b [|c l]]]; try discriminate E; destruct b; try discriminate E. inv_ok E; reflexivity. }
      destruct (str_eqb name (lit "format")); [destruct args as [|a l]; try discriminate E; destruct a; try discriminate E; inv_ok E; reflexivity|].
      destruct (str_eqb name (lit "join")); [inv_ok E; reflexivity|].
      destruct (_ || _); [destruct (negb _); [discriminate E|]; destruct args as [|a [|]]; try discriminate E; inv_ok E; reflexivity|].
      destruct (str_eqb name (lit "safe")); [destruct args as [|a [|]]; try discriminate E; inv_ok E; reflexivity|]. inv_ok E. reflexivity.
    - rewrite visit_call in E.
      destruct f; cbv zeta in E; try (inv_ok E; reflexivity).
      match type of E with match ?e with _ => _ end = _ => destruct e end; try (inv_ok E; reflexivity).
      destruct (str_eqb s (lit "loop")); [|inv_ok E; reflexivity]. destruct (str_eqb name (lit "cycle")); [|discriminate E].
      destruct args as [|a [|]]; [discriminate E| |destruct a; try discriminate E; match type of E with (match ?x with _ => _ end) = _ => destruct x; discriminate E end].
      destruct a; try (inv_ok E; reflexivity). match type of E with (match ?x with _ => _ end) = _ => destruct x; [discriminate E|] end. inv_ok E; reflexivity.
  Qed.

  Theorem visit_teval e : plain e = true -> (forall x, In x (fv e) -> x <> lit "loop" -> var_agree x) ->
    (forall x, In x (called e) -> call_agree x) -> agree e.
  Proof.
    intros Hp Hf Hc.
    enough (agree e /\ match e with Attr o _ => var_loop o = false -> agree o | _ => True end) by tauto. revert Hp Hf Hc.
    assert (LA : forall l, Forall (fun e => plain e = true -> (forall x, In x (fv e) -> x <> lit "loop" -> var_agree x) ->
      (forall x, In x (called e) -> call_agree x) -> agree e /\ match e with Attr o _ => var_loop o = false -> agree o | _ => True end) l -> forallb plain l = true ->
      (forall x, In x (fvs l) -> x <> lit "loop" -> var_agree x) ->
      (forall x, In x ((fix many (l : list expr) := match l with [] => [] | e :: l' => called e ++ many l' end) l) -> call_agree x) -> Forall agree l).
    { induction 1 as [|e' l He Hl IH]; intros Hp Hf Hc; constructor.
      - apply (fun A B C => proj1 (He A B C)); [cbn in Hp; apply andb_prop in Hp; tauto| |]; intros; [apply Hf; [cbn; apply in_or_app; auto|auto]|apply Hc; apply in_or_app; auto].
      - apply IH; [cbn in Hp; apply andb_prop in Hp; tauto| |]; intros; [apply Hf; [cbn; apply in_or_app; auto|auto]|apply Hc; apply in_or_app; auto]. }
    induction e using expr_ind'; intros Hp Hf Hc; cbn [plain] in Hp;
      lazymatch goal with |- agree (Attr _ _) /\ _ => idtac | _ => split; [|exact I]; intros r' wr E HU end.
    - injection E as <- <-. reflexivity.
    - injection E as <- <-. reflexivity.
    - injection E as <- <-. reflexivity.
    - injection E as <- <-. reflexivity.
    - injection E as <- <-. cbn [teval] in *. destruct (str_eqb s (lit "self")) eqn:Es.
      + unfold visit_var. rewrite Es. cbn [reval]. rewrite Es. reflexivity.
      + apply Hf; [cbn [fv]; rewrite Es; left; reflexivity| |exact HU]. intros ->. vm_compute in Hp. discriminate Hp.
    - injection E as <- <-. reflexivity.
    - rewrite visit_arr in E. inv_ok E. cbn [reval teval] in *. rewrite (agree_subs l) by eauto using obnd_Unset. reflexivity.
    - apply andb_prop in Hp as [Hx Hp].
      assert (A : var_loop e = false -> agree e) by (intros EL; rewrite EL in Hp; apply (IHe Hp Hf Hc)).
      split; [|exact A]. intros r' wr E HU. cbn [visit_expr teval] in *. change is_loop with var_loop in *. destruct (var_loop e) eqn:EL.
      + change (v_plain (loop_attr x) = Ok (r', wr)) in E. inv_ok E. apply agree_loop; assumption.
      + change (v_plain (let! r0 := v_sub inp m e in Ok (RField r0 (normalize_identifier x))) = Ok (r', wr)) in E.
        inv_ok E. specialize (A eq_refl). cbn [reval]. use_sub e. rewrite unraw_norm by exact Hx. reflexivity.
    - apply andb_prop in Hp as [H1 H2].
      change (v_plain (let! r := v_sub inp m e1 in let! k := v_sub inp m e2 in Ok (RRef (RIndex r k))) = Ok (r', wr)) in E. inv_ok E.
      assert (A1 : agree e1) by (apply (fun A B C => proj1 (IHe1 A B C)); [exact H1| |]; intros; [apply Hf; [apply in_or_app; auto|auto]|apply Hc; apply in_or_app; auto]).
      assert (A2 : agree e2) by (apply (fun A B C => proj1 (IHe2 A B C)); [exact H2| |]; intros; [apply Hf; [apply in_or_app; auto|auto]|apply Hc; apply in_or_app; auto]).
      cbn [reval teval] in *. use_sub e1. destruct (tev e1); try reflexivity. cbn [obnd] in *. use_sub e2. reflexivity.
    - exact (agree_filter n l (LA l H Hp Hf Hc) r' wr E HU).
    - change (v_plain (v_sub inp m e) = Ok (r', wr)) in E. inv_ok E. pose proof (proj1 (IHe Hp Hf Hc)) as A. cbn [teval] in *. use_sub e. reflexivity.
    - change (v_plain (let! r := v_sub inp m e in Ok (RUn o r)) = Ok (r', wr)) in E. inv_ok E. pose proof (proj1 (IHe Hp Hf Hc)) as A. one e.
    - apply andb_prop in Hp as [H1 H2].
      change (v_plain (let! a := v_sub inp m e1 in let! b := v_sub inp m e2 in Ok (RBin o a b)) = Ok (r', wr)) in E. inv_ok E.
      assert (A1 : agree e1) by (apply (fun A B C => proj1 (IHe1 A B C)); [exact H1| |]; intros; [apply Hf; [apply in_or_app; auto|auto]|apply Hc; apply in_or_app; auto]).
      assert (A2 : agree e2) by (apply (fun A B C => proj1 (IHe2 A B C)); [exact H2| |]; intros; [apply Hf; [apply in_or_app; auto|auto]|apply Hc; apply in_or_app; auto]).
      cbn [reval teval] in *. unfold lazy_bin in *.
      destruct (str_eqb o (lit "&&")); [|destruct (str_eqb o (lit "||"))]; use_sub e1;
        (destruct (tev e1) as [v| |]; [|reflexivity|reflexivity]); cbn [obnd] in *.
      + destruct (of_opt (w_truth w v)) as [[]| |]; cbn [obnd] in *; [use_sub e2|..]; reflexivity.
      + destruct (of_opt (w_truth w v)) as [[]| |]; cbn [obnd] in *; [|use_sub e2|..]; reflexivity.
      + use_sub e2. reflexivity.
    - apply andb_prop in Hp as [H1 H2].
      change (v_plain (let! a := v_opt inp m l in let! b := v_opt inp m r in Ok (RRange o a b)) = Ok (r', wr)) in E. inv_ok E.
      assert (A1 : match l with Some e => agree e | None => True end).
      { destruct l as [e1|]; [|exact I]. apply (fun A B C => proj1 (H A B C)); [exact H1| |]; intros; [apply Hf; [cbn; apply in_or_app; auto|auto]|apply Hc; cbn; apply in_or_app; auto]. }
      assert (A2 : match r with Some e => agree e | None => True end).
      { destruct r as [e1|]; [|exact I]. apply (fun A B C => proj1 (H0 A B C)); [exact H2| |]; intros; [apply Hf; [cbn; apply in_or_app; auto|auto]|apply Hc; cbn; apply in_or_app; auto]. }
      cbn [reval teval] in *.
      destruct l as [e1|]; cbn [v_opt] in E0; inv_ok E0; cbn [obnd] in *.
      + use_sub e1. destruct (tev e1); try reflexivity. cbn [obnd] in *.
        destruct r as [e2|]; cbn [v_opt] in E1; inv_ok E1; cbn [obnd] in *; [|reflexivity]. use_sub e2. reflexivity.
      + destruct r as [e2|]; cbn [v_opt] in E1; inv_ok E1; cbn [obnd] in *; [|reflexivity]. use_sub e2. reflexivity.
    - change (v_plain (let! r := v_sub inp m e in Ok (RGrp r)) = Ok (r', wr)) in E. inv_ok E. pose proof (proj1 (IHe Hp Hf Hc)) as A. one e.
    - rewrite visit_tuple in E. inv_ok E. cbn [reval teval] in *. rewrite (agree_subs l) by eauto using obnd_Unset. reflexivity.
    - apply andb_prop in Hp as [H1 H2]. rewrite visit_call in E.
      assert (AL : Forall agree l).
      { apply LA; [exact H|exact H2| |]; intros; [apply Hf; [cbn; apply in_or_app; auto|auto]|apply Hc; cbn; apply in_or_app; auto]. }
      assert (AE : plain e = true -> match e with Var _ => false | _ => true end = true ->
        agree e /\ match e with Attr o _ => var_loop o = false -> agree o | _ => True end).
      { intros P1 P2. apply IHe; [exact P1| |]; intros; [apply Hf; [cbn; apply in_or_app; auto|auto]|].
        apply Hc. cbn. apply in_or_app. left. destruct e; auto; discriminate P2. }
      assert (Gen : match e with Var _ | Attr _ _ | NamedArgument _ _ => false | _ => true end = true ->
         v_plain (let! r := v_sub inp m e in let! rs := v_args inp m l in Ok (RCall r rs)) = Ok (r', wr) ->
         plain e = true -> (let^ v := tev e in let^ vs := out_map tev l in of_opt (w_call w v vs)) <> Unset ->
         rev_ r' = let^ v := tev e in let^ vs := out_map tev l in of_opt (w_call w v vs)).
      { clear E HU. intros He E Hp HU. assert (A : agree e) by (apply AE; [exact Hp|]; destruct e; try reflexivity; discriminate He).
        inv_ok E. pose proof E0 as E2. apply v_sub_Ok in E2 as [wr0 E2]. rewrite reval_call by (eapply visit_not_field; eassumption).
        use_sub e. destruct (tev e); try reflexivity. cbn [obnd] in *. rewrite (agree_args l) by eauto using obnd_Unset. reflexivity. }
      cbn [teval] in HU |- *. change is_loop with var_loop in *.
      destruct e; try (apply Gen; [reflexivity|exact E|exact H1|exact HU]); [| |discriminate H1].
      + cbv zeta in E. inv_ok E. fold (callee s). destruct (Hc s) as [C1 C2]; [cbn; left; reflexivity|].
        rewrite reval_call by exact C1. rewrite C2 by eauto using obnd_Unset. destruct (var_value w te st s); try reflexivity. cbn [obnd] in *.
        rewrite (agree_args l) by eauto using obnd_Unset. reflexivity.
      + destruct (AE H1 eq_refl) as [_ A]. cbn [plain] in H1. apply andb_prop in H1 as [Hx H1].
        assert (Meth : var_loop e = false -> v_plain (let! r := v_sub inp m (Attr e name) in let! rs := v_args inp m l in Ok (RCall r rs)) = Ok (r', wr) ->
          (let^ v := tev e in let^ vs := out_map tev l in of_opt (w_method w v name vs)) <> Unset ->
          rev_ r' = let^ v := tev e in let^ vs := out_map tev l in of_opt (w_method w v name vs)).
        { clear E HU. intros HL E HU. specialize (A HL). inv_ok E. pose proof E0 as E2. apply v_sub_Ok in E2 as [wr0 E2]. cbn [visit_expr] in E2. rewrite HL in E2.
          change (v_plain (let! r0 := v_sub inp m e in Ok (RField r0 (normalize_identifier name))) = Ok (a, wr0)) in E2. inv_ok E2.
          cbn [reval]. use_sub e. destruct (tev e); try reflexivity. cbn [obnd] in *. fold rargs. rewrite (agree_args l) by eauto using obnd_Unset.
          rewrite unraw_norm by exact Hx. reflexivity. }
        destruct (var_loop e) eqn:EL; [|apply Meth; [reflexivity| |exact HU]].
        * destruct e; try discriminate EL. cbn [var_loop] in EL. rewrite EL in E. destruct (str_eqb name (lit "cycle")); [|discriminate E].
          destruct l as [|a [|]]; [discriminate E| |destruct a; try discriminate E; match type of E with (match ?x with _ => _ end) = _ => destruct x; discriminate E end].
          assert (E' : v_plain (let! r := v_sub inp m a in Ok (RCycle r)) = Ok (r', wr)).
          { destruct a; try exact E. match type of E with (match ?x with _ => _ end) = _ => destruct x; [discriminate E|exact E] end. }
          clear E. inv_ok E'. inversion AL; subst. cbn [reval]. use_sub a. destruct (tev a) as [v| |]; try reflexivity. cbn [obnd] in *.
          destruct (of_opt (w_elems w v)) as [vs| |]; try reflexivity. cbn [obnd] in *. destruct lp_cases as [(i & f & la & L)|L]; [|rewrite L in HU; congruence].
          unfold read. rewrite (Hlp i f la L). rewrite L. cbn [slot_value obnd]. rewrite (ok_index w wok), (ok_num w wok). reflexivity.
        * destruct e; try exact E. cbn [var_loop] in EL. rewrite EL in E. exact E.
    - injection E as <- <-. exfalso. apply HU. reflexivity.
    - change (v_plain (let! r := v_sub inp m e in Ok (RTry r)) = Ok (r', wr)) in E. inv_ok E. pose proof (proj1 (IHe Hp Hf Hc)) as A. one e.
    - discriminate Hp.
  Qed.
End Agree.

(** Which expressions are written as they are *)
Lemma visit_wrap inp m e r wr : visit_expr inp m e = Ok (r, wr) -> wr = opts_out e.
Proof.
  destruct e; intros E;
    try (cbn [visit_expr] in E; inv_ok E; reflexivity).
  - cbn [visit_expr] in E. destruct (var_loop e); [change (v_plain (loop_attr name) = Ok (r, wr)) in E|]; inv_ok E; reflexivity.
  - rewrite visit_filter in E. cbn [opts_out].
    destruct (str_eqb name (lit "as_ref")) eqn:N1.
    { apply str_eqb_eq in N1. subst. destruct args as [|a [|]]; try discriminate E; inv_ok E; reflexivity. }
    destruct (str_eqb name (lit "deref")) eqn:N2.
    { apply str_eqb_eq in N2. subst. destruct args as [|a [|]]; try discriminate E; inv_ok E; reflexivity. }
    destruct (str_eqb name (lit "escape") || str_eqb name (lit "e")) eqn:N3.
    { assert (wr = true).
      { destruct args as [|a [|b [|c l]]]; try discriminate E; [|destruct b; try discriminate E|destruct b; discriminate E]; inv_ok E; reflexivity. }
      subst. apply orb_true_iff in N3 as [N3|N3]; rewrite N3; cbn; rewrite ?orb_true_r; reflexivity. }
    apply orb_false_iff in N3 as [N3 N3']. rewrite N3, N3'.
    destruct (str_eqb name (lit "fmt")) eqn:N4.
    { apply str_eqb_eq in N4. subst. destruct args as [|a [|b [|c l]]]; try discriminate E; destruct b; try discriminate E. inv_ok E; reflexivity. }
    destruct (str_eqb name (lit "format")) eqn:N5.
    { apply str_eqb_eq in N5. subst. destruct args as [|a l]; try discriminate E; destruct a; try discriminate E; inv_ok E; reflexivity. }
    destruct (str_eqb name (lit "join")) eqn:N6; [apply str_eqb_eq in N6; subst; inv_ok E; reflexivity|].
    destruct (str_eqb name (lit "json") || str_eqb name (lit "tojson")) eqn:N7.
    { destruct (negb _); [discriminate E|]; destruct args as [|a [|]]; try discriminate E; inv_ok E.
      apply orb_true_iff in N7 as [N7|N7]; apply str_eqb_eq in N7; subst; reflexivity. }
    destruct (str_eqb name (lit "safe")) eqn:N8; [destruct args as [|a [|]]; try discriminate E; inv_ok E; reflexivity|].
    inv_ok E. reflexivity.
  - rewrite visit_call in E. destruct e; cbv zeta in E; try (inv_ok E; reflexivity).
    match type of E with match ?e with _ => _ end = _ => destruct e end; try (inv_ok E; reflexivity).
    destruct (str_eqb s (lit "loop")); [|inv_ok E; reflexivity]. destruct (str_eqb name (lit "cycle")); [|discriminate E].
    destruct args as [|a [|]]; [discriminate E| |destruct a; try discriminate E; match type of E with (match ?x with _ => _ end) = _ => destruct x; discriminate E end].
    destruct a; try (inv_ok E; reflexivity). match type of E with (match ?x with _ => _ end) = _ => destruct x; [discriminate E|] end. inv_ok E; reflexivity.
Qed.

(** ** The names a generated expression reads *)
Fixpoint rnames (r : rexpr) : list str :=
  let many := fix many (l : list rexpr) : list str := match l with [] => [] | r :: l' => rnames r ++ many l' end in
  let args := fix args (l : list (bool * bool * rexpr)) : list str := match l with [] => [] | (_, _, r) :: l' => rnames r ++ args l' end in
  match r with
  | RTok _ | RStr _ | RChar _ | RPath _ | RMacro _ _ => []
  | RName s => [s]
  | RArr l | RTup l | RJoin l => many l
  | RField e _ | RRef e | RDeref e | RUn _ e | RGrp e | RTry e | RMarkup _ e => rnames e
  | RCycle e => lit "_loop_item" :: rnames e
  | RIndex a b | RBin _ a b => rnames a ++ rnames b
  | RRange _ a b => match a with Some a => rnames a | None => [] end ++ match b with Some b => rnames b | None => [] end
  | RCall f l => rnames f ++ args l
  | RFilter _ _ l | RFormat _ l => args l
  | RSafe _ (_, _, e) | REscape _ (_, _, e) => rnames e
  end.
Fixpoint rnames_l (l : list rexpr) : list str := match l with [] => [] | r :: l' => rnames r ++ rnames_l l' end.
Fixpoint rnames_a (l : list (bool * bool * rexpr)) : list str := match l with [] => [] | (_, _, r) :: l' => rnames r ++ rnames_a l' end.

Section Stable.
  Variable w : world.
  Variables (re re' : env w) (st st' : store w).
  Definition mono (st st' : store w) : Prop := forall l v, nth_error st l = Some (Some v) -> nth_error st' l = Some (Some v).
  Hypothesis Hst : mono st st'.
  Definition same_name (n : str) : Prop := n = lit "self" \/ lookup w re' n = lookup w re n.
  Definition stable (r : rexpr) : Prop := reval w re st r <> Unset -> reval w re' st' r = reval w re st r.
  Lemma read_stable x : lookup w re' x = lookup w re x -> read w re st x <> Unset -> read w re' st' x = read w re st x.
  Proof.
    intros E HU. unfold read in *. rewrite E. destruct (lookup w re x) as [[v|l]|]; try reflexivity. cbn [slot_value] in *.
    destruct (nth_error st l) as [[v|]|] eqn:N; try congruence. rewrite (Hst _ _ N). reflexivity.
  Qed.
  Lemma stable_list l : Forall stable l -> out_map (reval w re st) l <> Unset -> out_map (reval w re' st') l = out_map (reval w re st) l.
  Proof.
    induction 1 as [|r l Hr Hl IH]; intros HU; [reflexivity|]. cbn [out_map] in *. rewrite Hr by eauto using obnd_Unset.
    destruct (reval w re st r); try reflexivity. cbn [obnd] in *. rewrite IH by eauto using obnd_Unset. reflexivity.
  Qed.
  Lemma stable_args l : Forall (fun a => stable (snd a)) l -> rargs w re st l <> Unset -> rargs w re' st' l = rargs w re st l.
  Proof.
    unfold rargs. induction 1 as [|[[b c] r] l Hr Hl IH]; intros HU; [reflexivity|]. cbn [out_map snd] in *. rewrite Hr by eauto using obnd_Unset.
    destruct (reval w re st r); try reflexivity. cbn [obnd] in *. rewrite IH by eauto using obnd_Unset. reflexivity.
  Qed.
  Ltac sub H := rewrite H by eauto using obnd_Unset; match goal with |- obnd ?x _ = _ => destruct x; try reflexivity; cbn [obnd] in * | _ => idtac end.
  Theorem reval_stable r : (forall n, In n (rnames r) -> same_name n) -> stable r.
  Proof.
    enough ((forall n, In n (rnames r) -> same_name n) -> stable r /\ match r with RField o _ => stable o | _ => True end) by tauto.
    assert (LL : forall l, Forall (fun r => (forall n, In n (rnames r) -> same_name n) -> stable r /\ match r with RField o _ => stable o | _ => True end) l ->
       (forall n, In n (rnames_l l) -> same_name n) -> Forall stable l).
    { induction 1 as [|e l He Hl IH]; intros H; constructor; [apply He|apply IH]; intros n Hn; apply H; cbn; apply in_or_app; auto. }
    assert (LA : forall l, Forall (fun a : bool * bool * rexpr => (forall n, In n (rnames (snd a)) -> same_name n) ->
         stable (snd a) /\ match snd a with RField o _ => stable o | _ => True end) l ->
       (forall n, In n (rnames_a l) -> same_name n) -> Forall (fun a => stable (snd a)) l).
    { induction 1 as [|[[b c] e] l He Hl IH]; intros H; constructor; [apply He|apply IH]; intros n Hn; apply H; cbn; apply in_or_app; auto. }
    induction r using rexpr_ind'; intros Hn;
      lazymatch goal with |- stable (RField _ _) /\ _ => idtac | _ => split; [|exact I]; intros HU; cbn [reval] in *; try reflexivity end.
    - destruct (str_eqb s (lit "self")) eqn:Es; [reflexivity|]. destruct (Hn s) as [->|E]; [left; reflexivity|discriminate Es|]. apply read_stable; assumption.
    - rewrite stable_list by eauto using obnd_Unset. reflexivity.
    - rewrite stable_list by eauto using obnd_Unset. reflexivity.
    - pose proof (proj1 (IHr Hn)) as S1. split; [|exact S1]. intros HU. cbn [reval] in *. sub S1.
    - assert (S1 : stable r1) by (apply IHr1; intros; apply Hn; apply in_or_app; auto).
      assert (S2 : stable r2) by (apply IHr2; intros; apply Hn; apply in_or_app; auto).
      sub S1. sub S2.
    - apply IHr; assumption.
    - apply IHr; assumption.
    - pose proof (proj1 (IHr Hn)) as S1. sub S1.
    - assert (S1 : stable r1) by (apply IHr1; intros; apply Hn; apply in_or_app; auto).
      assert (S2 : stable r2) by (apply IHr2; intros; apply Hn; apply in_or_app; auto).
      unfold lazy_bin in *. destruct (str_eqb o (lit "&&")); [|destruct (str_eqb o (lit "||"))]; sub S1.
      + destruct (of_opt (w_truth w a)) as [[]| |]; try reflexivity. cbn [obnd] in *. sub S2.
      + destruct (of_opt (w_truth w a)) as [[]| |]; try reflexivity. cbn [obnd] in *. sub S2.
      + sub S2.
    - assert (S1 : match l with Some r1 => stable r1 | None => True end) by (destruct l; [|exact I]; apply H; intros; apply Hn; apply in_or_app; auto).
      assert (S2 : match r with Some r1 => stable r1 | None => True end) by (destruct r; [|exact I]; apply H0; intros; apply Hn; apply in_or_app; auto).
      destruct l as [l|]; cbn [obnd] in *.
      + assert (U1 : reval w re st l <> Unset) by eauto using obnd_Unset. rewrite S1 by exact U1. destruct (reval w re st l); try reflexivity. cbn [obnd] in *.
        destruct r as [r|]; cbn [obnd] in *; [|reflexivity]. assert (U2 : reval w re st r <> Unset) by eauto using obnd_Unset. rewrite S2 by exact U2. reflexivity.
      + destruct r as [r|]; cbn [obnd] in *; [|reflexivity]. assert (U2 : reval w re st r <> Unset) by eauto using obnd_Unset. rewrite S2 by exact U2. reflexivity.
    - apply IHr; assumption.
    - assert (S1 : stable r) by (apply IHr; intros; apply Hn; right; assumption).
      sub S1. destruct (of_opt (w_elems w a)); try reflexivity. cbn [obnd] in *.
      rewrite read_stable; [reflexivity| |eauto using obnd_Unset]. destruct (Hn (lit "_loop_item")) as [E|E]; [left; reflexivity|discriminate E|exact E].
    - assert (SL : Forall (fun a => stable (snd a)) l) by (apply LA; [exact H|]; intros; apply Hn; cbn; apply in_or_app; right; assumption).
      destruct (IHr ltac:(intros; apply Hn; cbn; apply in_or_app; left; assumption)) as [SR SF].
      assert (G : (let^ v := reval w re st r in let^ vs := rargs w re st l in of_opt (w_call w v vs)) <> Unset ->
         (let^ v := reval w re' st' r in let^ vs := rargs w re' st' l in of_opt (w_call w v vs)) =
         let^ v := reval w re st r in let^ vs := rargs w re st l in of_opt (w_call w v vs)).
      { intros U. rewrite SR by eauto using obnd_Unset. destruct (reval w re st r); try reflexivity. cbn [obnd] in *. rewrite stable_args by eauto using obnd_Unset. reflexivity. }
      destruct r; try (apply G; exact HU).
      fold (rargs w re' st') (rargs w re st) in *. sub SF. rewrite stable_args by eauto using obnd_Unset. reflexivity.
    - pose proof (proj1 (IHr Hn)) as S1. sub S1.
    - fold (rargs w re' st') (rargs w re st) in *. rewrite stable_args by eauto using obnd_Unset. reflexivity.
    - destruct a as [[b c] e]. pose proof (proj1 (IHr Hn)) as S1. cbn [snd] in S1. sub S1.
    - destruct a as [[b c] e]. pose proof (proj1 (IHr Hn)) as S1. cbn [snd] in S1. sub S1.
    - fold (rargs w re' st') (rargs w re st) in *. rewrite stable_args by eauto using obnd_Unset. reflexivity.
    - rewrite stable_list by eauto using obnd_Unset. reflexivity.
    - pose proof (proj1 (IHr Hn)) as S1. sub S1.
  Qed.
End Stable.
