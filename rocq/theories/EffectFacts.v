(** * Merging repeated expressions is invisible even if calls have effects. *)
From Coq Require Import ZArith ZifyBool ZifyNat ZifyN.
From Verif Require Import Base Ws Ast Ident GenExpr Heritage Gen Sem RefSem RexprFacts FlushFacts SimExpr Effect Shipped.
Local Open Scope N_scope.

Lemma forallb_negb {A} (f g : A -> bool) l : Forall (fun a => f a = negb (g a)) l -> forallb f l = negb (existsb g l).
Proof. induction 1 as [|a l H _ IH]; cbn; [reflexivity|]. rewrite H, IH. destruct (g a); reflexivity. Qed.
Theorem cacheable_no_call e : is_cacheable e = negb (has_call e).
Proof.
  induction e using expr_ind'; cbn [is_cacheable has_call]; try reflexivity; try assumption; try (apply forallb_negb; assumption).
  - rewrite IHe1, IHe2. destruct (has_call e1); reflexivity.
  - rewrite IHe1, IHe2. destruct (has_call e1); reflexivity.
  - destruct l as [a|], r as [b|]; cbn [POptE] in *; rewrite ?H, ?H0; try reflexivity.
    + destruct (has_call a); reflexivity.
    + destruct (has_call a); reflexivity.
Qed.

Section Quiet.
  Variables (inp : ginput) (m : chain).
  Hypothesis Hm : quiet_aliases m.
  Definition silent (e : expr) : Prop := has_call e = false -> has_user_filter e = false ->
    forall r wr, visit_expr inp m e = Ok (r, wr) -> quiet r = true.
  Lemma quiet_var s : quiet (visit_var m s) = true.
  Proof using Hm.
    unfold visit_var. destruct (str_eqb s (lit "self")); [reflexivity|]. unfold ch_resolve_or_self, ch_resolve.
    destruct (ch_get m (normalize_identifier s)) as [meta|] eqn:E; [|reflexivity].
    destruct (l_refs meta) as [r|] eqn:R; [|reflexivity]. pose proof (Hm _ _ _ E R) as Q. destruct r; exact Q || reflexivity.
  Qed.
  Lemma quiet_sub e r : silent e -> has_call e = false -> has_user_filter e = false -> v_sub inp m e = Ok r -> quiet r = true.
  Proof. intros S H1 H2 E. apply v_sub_Ok in E as [wr E]. exact (S H1 H2 r wr E). Qed.
  Lemma quiet_subs l : Forall silent l -> existsb has_call l = false -> existsb has_user_filter l = false ->
    forall rs, v_subs inp m l = Ok rs -> forallb quiet rs = true.
  Proof.
    induction 1 as [|e l H _ IH]; intros H1 H2 rs E; cbn [v_subs existsb] in *.
    - injection E as <-. reflexivity.
    - apply orb_false_iff in H1 as [H1 H1']. apply orb_false_iff in H2 as [H2 H2']. inv_ok E.
      cbn [forallb]. rewrite (quiet_sub _ _ H H1 H2 E0). exact (IH H1' H2' _ E1).
  Qed.
  Definition quiet_arg (a : bool * bool * rexpr) : bool := match a with (_, _, e) => quiet e end.
  Lemma quiet_v_arg e a : silent e -> has_call e = false -> has_user_filter e = false -> v_arg inp m e = Ok a -> quiet_arg a = true.
  Proof. intros S H1 H2 E. unfold v_arg in E. inv_ok E. cbn. eapply quiet_sub; eassumption. Qed.
  Lemma quiet_args l : Forall silent l -> existsb has_call l = false -> existsb has_user_filter l = false ->
    forall rs, v_args inp m l = Ok rs -> forallb quiet_arg rs = true.
  Proof.
    induction 1 as [|e l H _ IH]; intros H1 H2 rs E; cbn [v_args existsb] in *.
    - injection E as <-. reflexivity.
    - apply orb_false_iff in H1 as [H1 H1']. apply orb_false_iff in H2 as [H2 H2']. inv_ok E.
      cbn [forallb]. rewrite (quiet_v_arg _ _ H H1 H2 E0). exact (IH H1' H2' _ E1).
  Qed.
  Lemma Forall_hd {A} (P : A -> Prop) a l : Forall P (a :: l) -> P a.
  Proof. inversion 1. assumption. Qed.
  Lemma Forall_tl {A} (P : A -> Prop) a l : Forall P (a :: l) -> Forall P l.
  Proof. inversion 1. assumption. Qed.
  Lemma quiet_refs rs : forallb quiet (map RRef rs) = forallb quiet rs.
  Proof using Type. induction rs as [|r rs IH]; [reflexivity|]. cbn [map forallb]. rewrite IH. reflexivity. Qed.
  Lemma visit_quiet e : silent e.
  Proof using Hm.
    induction e using expr_ind'; unfold silent; intros HC HU r0 wr E.
    1-4: cbn [visit_expr] in E; inv_ok E; reflexivity.
    - cbn [visit_expr] in E. inv_ok E. apply quiet_var.
    - cbn [visit_expr] in E; inv_ok E; reflexivity.
    - rewrite visit_arr in E. inv_ok E. cbn [quiet]. eapply quiet_subs; eassumption.
    - cbn [visit_expr] in E. destruct (var_loop e).
      + change (v_plain (loop_attr x) = Ok (r0, wr)) in E. inv_ok E. unfold loop_attr in E.
        repeat match type of E with (if ?b then _ else _) = _ => destruct b end; inv_ok E; try reflexivity. discriminate E.
      + change (v_plain (let! r := v_sub inp m e in Ok (RField r (normalize_identifier x))) = Ok (r0, wr)) in E. inv_ok E. cbn [quiet].
        eapply quiet_sub; eassumption.
    - cbn [has_call has_user_filter] in HC, HU. apply orb_false_iff in HC as [C1 C2]. apply orb_false_iff in HU as [U1 U2].
      change (v_plain (let! r := v_sub inp m e1 in let! k := v_sub inp m e2 in Ok (RRef (RIndex r k))) = Ok (r0, wr)) in E. inv_ok E.
      cbn [quiet]. rewrite (quiet_sub _ _ IHe1 C1 U1 E0). exact (quiet_sub _ _ IHe2 C2 U2 E1).
    - cbn [has_call has_user_filter] in HC, HU. apply orb_false_iff in HU as [UN UL]. apply negb_false_iff in UN.
      pose proof (quiet_args l H HC UL) as QA. pose proof (quiet_subs l H HC UL) as QS.
      rewrite visit_filter in E.
      destruct (str_eqb n (lit "as_ref")) eqn:N1.
      { destruct l as [|a [|]]; try discriminate E. inv_ok E. cbn [existsb] in *. apply orb_false_iff in HC as [HC _]. apply orb_false_iff in UL as [UL _].
        cbn [quiet]. eapply quiet_sub; try eassumption. exact (Forall_hd _ _ _ H). }
      destruct (str_eqb n (lit "deref")) eqn:N2.
      { destruct l as [|a [|]]; try discriminate E. inv_ok E. cbn [existsb] in *. apply orb_false_iff in HC as [HC _]. apply orb_false_iff in UL as [UL _].
        cbn [quiet]. eapply quiet_sub; try eassumption. exact (Forall_hd _ _ _ H). }
      destruct (str_eqb n (lit "escape") || str_eqb n (lit "e")) eqn:N3.
      { assert (HA : forall a, In a l -> forall x, v_arg inp m a = Ok x -> quiet_arg x = true).
        { intros a Ha x Hx. rewrite Forall_forall in H. eapply quiet_v_arg; [exact (H a Ha)| | |exact Hx].
          - destruct (has_call a) eqn:Q; [|reflexivity]. assert (existsb has_call l = true) by (apply existsb_exists; eauto). congruence.
          - destruct (has_user_filter a) eqn:Q; [|reflexivity]. assert (existsb has_user_filter l = true) by (apply existsb_exists; eauto). congruence. }
        destruct l as [|a [|b [|c l]]]; try discriminate E; [|destruct b; try discriminate E|destruct b; discriminate E]; inv_ok E;
          match goal with K : v_arg inp m a = Ok ?x |- _ => destruct x as [[? ?] ?]; exact (HA a (or_introl eq_refl) _ K) end. }
      destruct (str_eqb n (lit "fmt")) eqn:N4.
      { destruct l as [|a [|b [|c l]]]; try discriminate E; destruct b; try discriminate E. inv_ok E.
        cbn [existsb] in *. apply orb_false_iff in HC as [HC _]. apply orb_false_iff in UL as [UL _].
        pose proof (quiet_v_arg _ _ (Forall_hd _ _ _ H) HC UL E0) as Q. destruct a0 as [[? ?] ?]. cbn [quiet forallb]. cbn in Q. rewrite Q. reflexivity. }
      destruct (str_eqb n (lit "format")) eqn:N5.
      { destruct l as [|a l]; try discriminate E; destruct a; try discriminate E. inv_ok E.
        cbn [existsb] in *. apply orb_false_iff in HC as [_ HC]. apply orb_false_iff in UL as [_ UL].
        exact (quiet_args _ (Forall_tl _ _ _ H) HC UL _ E0). }
      destruct (str_eqb n (lit "join")) eqn:N6; [inv_ok E; cbn [quiet]; rewrite quiet_refs; exact (QS _ E0)|].
      destruct (str_eqb n (lit "json") || str_eqb n (lit "tojson")) eqn:N7.
      { destruct (negb _); [discriminate E|]; destruct l as [|a [|]]; try discriminate E; inv_ok E.
        cbn [existsb] in *. apply orb_false_iff in HC as [HC _]. apply orb_false_iff in UL as [UL _].
        pose proof (quiet_v_arg _ _ (Forall_hd _ _ _ H) HC UL E0) as Q. destruct a0 as [[? ?] ?]. cbn [quiet forallb andb]. cbn in Q. rewrite Q. reflexivity. }
      destruct (str_eqb n (lit "safe")) eqn:N8.
      { destruct l as [|a [|]]; try discriminate E; inv_ok E.
        cbn [existsb] in *. apply orb_false_iff in HC as [HC _]. apply orb_false_iff in UL as [UL _].
        pose proof (quiet_v_arg _ _ (Forall_hd _ _ _ H) HC UL E0) as Q. destruct a0 as [[? ?] ?]. exact Q. }
      inv_ok E. cbn [quiet].
      assert (B : mem_str n shipped = true).
      { unfold askama_filter in UN. apply orb_true_iff in UN as [UN|UN].
        - cbn [existsb] in UN. rewrite N1, N2 in UN. apply orb_false_iff in N7 as [_ N7]. rewrite N7 in UN. discriminate UN.
        - exact UN. }
      apply andb_true_intro. split; [exact B|exact (QA _ E0)].
    - change (v_plain (v_sub inp m e) = Ok (r0, wr)) in E. inv_ok E. eapply quiet_sub; eassumption.
    - change (v_plain (let! r := v_sub inp m e in Ok (RUn o r)) = Ok (r0, wr)) in E. inv_ok E. cbn [quiet]. eapply quiet_sub; eassumption.
    - cbn [has_call has_user_filter] in HC, HU. apply orb_false_iff in HC as [C1 C2]. apply orb_false_iff in HU as [U1 U2].
      change (v_plain (let! a := v_sub inp m e1 in let! b := v_sub inp m e2 in Ok (RBin o a b)) = Ok (r0, wr)) in E. inv_ok E.
      cbn [quiet]. rewrite (quiet_sub _ _ IHe1 C1 U1 E0). exact (quiet_sub _ _ IHe2 C2 U2 E1).
    - cbn [has_call has_user_filter] in HC, HU. apply orb_false_iff in HC as [C1 C2]. apply orb_false_iff in HU as [U1 U2].
      change (v_plain (let! a := v_opt inp m l in let! b := v_opt inp m r in Ok (RRange o a b)) = Ok (r0, wr)) in E. inv_ok E.
      cbn [quiet]. unfold v_opt in E0, E1. apply andb_true_intro. split.
      + destruct l; inv_ok E0; [|reflexivity]. cbn in H. eapply quiet_sub; eassumption.
      + destruct r; inv_ok E1; [|reflexivity]. cbn in H0. eapply quiet_sub; eassumption.
    - change (v_plain (let! r := v_sub inp m e in Ok (RGrp r)) = Ok (r0, wr)) in E. inv_ok E. cbn [quiet]. eapply quiet_sub; eassumption.
    - rewrite visit_tuple in E. inv_ok E. cbn [quiet]. eapply quiet_subs; eassumption.
    - discriminate HC.
    - discriminate HC.
    - discriminate HC.
    - cbn [visit_expr] in E; inv_ok E; reflexivity.
  Qed.
End Quiet.

Section Run.
  Variable w : world.
  Variable T : Type.
  Variable x : effects w T.
  Variables (en : env w) (st : store w).
  Notation ev := (xeval w T x en st).
  (** A computation that neither reads nor changes the state *)
  Definition still {A} (c : eff T A) : Prop := exists o, forall t, c t = (o, t).
  Lemma still_pure {A} (o : out A) : still (pure T o).
  Proof. exists o. reflexivity. Qed.
  Lemma still_bnd {A B} (c : eff T A) (k : A -> eff T B) : still c -> (forall a, still (k a)) -> still (ebnd T c k).
  Proof.
    intros [o H] K. destruct o as [a| |].
    - destruct (K a) as [o' K']. exists o'. intros t. unfold ebnd. rewrite H. apply K'.
    - exists Fails. intros t. unfold ebnd. rewrite H. reflexivity.
    - exists Unset. intros t. unfold ebnd. rewrite H. reflexivity.
  Qed.
  Lemma still_map {A B} (f : A -> eff T B) l : Forall (fun a => still (f a)) l -> still (eff_map T f l).
  Proof.
    induction 1 as [|a l H _ IH]; cbn [eff_map]; [apply still_pure|].
    apply still_bnd; [exact H|]. intros b. apply still_bnd; [exact IH|]. intros bs. apply still_pure.
  Qed.
  Lemma still_bin op l r : still l -> still r -> still (eff_bin w T op l r).
  Proof.
    intros L R. unfold eff_bin. destruct (str_eqb op (lit "&&")); [|destruct (str_eqb op (lit "||"))].
    - apply still_bnd; [exact L|]. intros a. apply still_bnd; [apply still_pure|]. intros [|]; [|apply still_pure].
      apply still_bnd; [exact R|]. intros b. apply still_bnd; [apply still_pure|]. intros. apply still_pure.
    - apply still_bnd; [exact L|]. intros a. apply still_bnd; [apply still_pure|]. intros [|]; [apply still_pure|].
      apply still_bnd; [exact R|]. intros b. apply still_bnd; [apply still_pure|]. intros. apply still_pure.
    - apply still_bnd; [exact L|]. intros a. apply still_bnd; [exact R|]. intros. apply still_pure.
  Qed.
  Lemma forallb_still {A} (q : A -> bool) (P : A -> Prop) l : Forall (fun a => q a = true -> P a) l -> forallb q l = true -> Forall P l.
  Proof.
    induction 1 as [|a l H _ IH]; cbn; intros E; [constructor|]. apply andb_prop in E as [E1 E2]. constructor; auto.
  Qed.
  Lemma quiet_still r : quiet r = true -> still (ev r).
  Proof.
    assert (ARGS : forall l : list (bool * bool * rexpr), Forall (fun a => quiet (snd a) = true -> still (ev (snd a))) l ->
      forallb (fun a : bool * bool * rexpr => match a with (_, _, e) => quiet e end) l = true ->
      still (eff_map T (fun a : bool * bool * rexpr => match a with (_, _, e) => ev e end) l)).
    { intros l H Q. apply still_map.
      eapply forallb_still in Q; [exact Q|]. eapply Forall_impl; [|exact H]. intros [[b c] e] K. exact K. }
    induction r using rexpr_ind'; cbn [quiet xeval]; intros Q; try discriminate Q; try apply still_pure; try (apply IHr; exact Q).
    - apply still_bnd; [|intros; apply still_pure]. apply still_map. eapply forallb_still; eassumption.
    - apply still_bnd; [|intros; apply still_pure]. apply still_map. eapply forallb_still; eassumption.
    - apply still_bnd; [auto|intros; apply still_pure].
    - apply andb_prop in Q as [Q1 Q2]. apply still_bnd; [auto|]. intros. apply still_bnd; [auto|intros; apply still_pure].
    - apply still_bnd; [auto|intros; apply still_pure].
    - apply andb_prop in Q as [Q1 Q2]. apply still_bin; auto.
    - apply andb_prop in Q as [Q1 Q2].
      assert (O : forall o, POpt (fun r => quiet r = true -> still (ev r)) o -> match o with Some e => quiet e | None => true end = true ->
        still (match o with Some l => ebnd T (ev l) (fun v => pure T (Done (Some v))) | None => pure T (Done None) end)).
      { intros [e|] H1 H2; [|apply still_pure]. apply still_bnd; [exact (H1 H2)|intros; apply still_pure]. }
      apply still_bnd; [apply O; assumption|]. intros. apply still_bnd; [apply O; assumption|intros; apply still_pure].
    - apply still_bnd; [auto|intros; apply still_pure].
    - apply andb_prop in Q as [-> Q]. apply still_bnd; [apply ARGS; assumption|intros; apply still_pure].
    - destruct a as [[b c] e]. apply still_bnd; [auto|intros; apply still_pure].
    - destruct a as [[b c] e]. apply still_bnd; [auto|intros; apply still_pure].
    - apply still_bnd; [apply ARGS; assumption|intros; apply still_pure].
    - apply still_bnd; [|intros; apply still_pure]. apply still_map. eapply forallb_still; eassumption.
    - apply still_bnd; [auto|intros; apply still_pure].
  Qed.

  (** ** The loop *)
  Definition arg_eff (a : nat * rexpr) : eff T (str * V w) := ebnd T (ev (snd a)) (fun v => pure T (Done (arg_name (fst a), v))).
  Definition piece_eff (p : str + rexpr) : eff T (shown w) :=
    match p with inl s => pure T (Done (ShText w s)) | inr r => ebnd T (ev r) (fun v => pure T (Done (ShVal w v))) end.
  Lemma eff_map_snoc {A B} (f : A -> eff T B) l a t :
    eff_map T f (l ++ [a]) t = ebnd T (eff_map T f l) (fun bs => ebnd T (f a) (fun b => pure T (Done (bs ++ [b])))) t.
  Proof.
    revert t. induction l as [|y l IH]; intros t.
    - cbn [app eff_map]. unfold ebnd, pure. destruct (f a t) as [[b| |] t']; reflexivity.
    - cbn [app eff_map]. unfold ebnd at 1. unfold ebnd at 2. unfold ebnd at 2. destruct (f y t) as [[b| |] t1]; try reflexivity.
      unfold ebnd at 1. rewrite IH. unfold ebnd, pure. destruct (eff_map T f l t1) as [[bs| |] t2]; try reflexivity.
      destruct (f a t2) as [[c| |] t3]; reflexivity.
  Qed.
  (** What is known of an argument value once it is computed *)
  Definition arg_is (a : nat * rexpr) (b : str * V w) : Prop :=
    fst b = arg_name (fst a) /\ (quiet (snd a) = true -> forall t, ev (snd a) t = (Done (snd b), t)).
  Definition fp_shown (vals : list (str * V w)) (y : fp) (s : shown w) : Prop :=
    match y, s with
    | FL a, ShText _ b => a = b
    | FA id, ShVal _ v => get (arg_name id) vals = Some v
    | _, _ => False
    end.
  Definition same_run (args : list (nat * rexpr)) (ps : list (str + rexpr)) (l : list fp) : Prop :=
    forall t, match eff_map T arg_eff args t, eff_map T piece_eff ps t with
              | (Done vals, t1), (Done vs, t2) => t1 = t2 /\ Forall2 arg_is args vals /\ Forall2 (fp_shown vals) l vs
              | (Fails, t1), (Fails, t2) | (Unset, t1), (Unset, t2) => t1 = t2
              | _, _ => False
              end.
  Record eok (p : fparts) (ps : list (str + rexpr)) (l : list fp) : Prop := {
    ek_fmt : p_format p = concat (map fp_fmt l);
    ek_bound : Forall (fun a => fst a < p_named p)%nat (p_args p);
    ek_dup : NoDup (map fst (p_args p));
    ek_cache : forall r id, In (r, id) (p_cache p) -> In (id, r) (p_args p);
    ek_run : same_run (p_args p) ps l
  }.
  Lemma get_app_l {A} k (l l' : list (str * A)) v : get k l = Some v -> get k (l ++ l') = Some v.
  Proof. induction l as [|[k' v'] l IH]; cbn; [discriminate|]. destruct (str_eqb k k'); auto. Qed.
  Lemma get_app_r {A} k (l l' : list (str * A)) : ~ In k (map fst l) -> get k (l ++ l') = get k l'.
  Proof.
    induction l as [|[k' v'] l IH]; cbn; intros H; [reflexivity|]. rewrite (proj2 (str_eqb_neq _ _)); [|intros ->; auto]. auto.
  Qed.
  Lemma fp_shown_mono vals vals' y s : fp_shown vals y s -> fp_shown (vals ++ vals') y s.
  Proof. destruct y, s; cbn; auto. intros H. apply get_app_l. exact H. Qed.
  Lemma arg_names args vals : Forall2 arg_is args vals -> map fst vals = map (fun a => arg_name (fst a)) args.
  Proof. induction 1 as [|a b args vals [H _] _ IH]; cbn; [reflexivity|]. now rewrite H, IH. Qed.
  Lemma arg_get args vals id r : Forall2 arg_is args vals -> NoDup (map fst args) -> In (id, r) args ->
    exists v, get (arg_name id) vals = Some v /\ (quiet r = true -> forall t, ev r t = (Done v, t)).
  Proof.
    induction 1 as [|[k e] [y v] args vals [H1 H2] H IH]; intros D Hin; [destruct Hin|].
    cbn [map fst] in D. inversion D as [|? ? Hk D']; subst. cbn [fst snd] in *. subst y. cbn [get].
    destruct Hin as [E|Hin].
    - injection E as -> ->. rewrite str_eqb_refl. eauto.
    - rewrite (proj2 (str_eqb_neq _ _)); [apply IH; assumption|].
      intros E. apply arg_name_inj in E. subst. apply Hk. apply in_map_iff. exists (k, r). auto.
  Qed.
  Lemma run_new args ps l id r : same_run args ps l -> Forall (fun a => fst a < id)%nat args ->
    same_run (args ++ [(id, r)]) (ps ++ [inr r]) (l ++ [FA id]).
  Proof.
    intros H B t. specialize (H t). rewrite !eff_map_snoc. unfold ebnd.
    destruct (eff_map T arg_eff args t) as [[vals| |] t1], (eff_map T piece_eff ps t) as [[vs| |] t2]; try contradiction; try exact H.
    destruct H as (<- & HV & HS). cbn [piece_eff]. unfold arg_eff. cbn [fst snd]. unfold ebnd, pure.
    destruct (ev r t1) as [[v| |] t3] eqn:E; try reflexivity. cbv beta iota. split; [reflexivity|]. split.
    - apply Forall2_snoc; [exact HV|]. split; [reflexivity|]. cbn [snd]. intros Q u. destruct (quiet_still r Q) as [o K].
      rewrite K in E. injection E as -> <-. apply K.
    - apply Forall2_snoc.
      + eapply Forall2_impl; [|exact HS]. intros a b. apply fp_shown_mono.
      + cbn [fp_shown]. rewrite get_app_r.
        * cbn [get]. rewrite str_eqb_refl. reflexivity.
        * rewrite (arg_names _ _ HV). intros Hin. apply in_map_iff in Hin as (a & Ha & Hin). apply arg_name_inj in Ha.
          rewrite Forall_forall in B. apply B in Hin. lia.
  Qed.
  Lemma run_old args ps l id r : same_run args ps l -> NoDup (map fst args) -> In (id, r) args -> quiet r = true ->
    same_run args (ps ++ [inr r]) (l ++ [FA id]).
  Proof.
    intros H D Hin Q t. specialize (H t). rewrite eff_map_snoc. unfold ebnd.
    destruct (eff_map T arg_eff args t) as [[vals| |] t1], (eff_map T piece_eff ps t) as [[vs| |] t2]; try contradiction; try exact H.
    destruct H as (<- & HV & HS). cbn [piece_eff]. destruct (arg_get _ _ _ _ HV D Hin) as (v & G & K).
    unfold ebnd, pure. rewrite (K Q). split; [reflexivity|]. split; [exact HV|]. apply Forall2_snoc; [exact HS|]. exact G.
  Qed.
  Lemma run_text args ps l s : same_run args ps l -> same_run args (ps ++ [inl s]) (l ++ [FL s]).
  Proof.
    intros H t. specialize (H t). rewrite eff_map_snoc. unfold ebnd.
    destruct (eff_map T arg_eff args t) as [[vals| |] t1], (eff_map T piece_eff ps t) as [[vs| |] t2]; try contradiction; try exact H.
    destruct H as (<- & HV & HS). split; [reflexivity|]. split; [exact HV|]. apply Forall2_snoc; [exact HS|reflexivity].
  Qed.
  Lemma named_expression_eff inp p ps l r (wrapped cacheable : bool) :
    let ex := if wrapped then r else RMarkup (f_escaper inp) r in
    eok p ps l -> (cacheable = true -> quiet ex = true) ->
    exists y, eok (named_expression inp r wrapped cacheable p) (ps ++ [inr ex]) (l ++ [y]).
  Proof.
    intros ex H Q. unfold named_expression. fold ex.
    assert (New : forall cache, (forall r0 id, In (r0, id) cache -> In (id, r0) (p_args p ++ [(p_named p, ex)])) ->
       eok {| p_format := p_format p ++ lit "{" ++ arg_name (p_named p) ++ lit "}"; p_args := p_args p ++ [(p_named p, ex)];
         p_size := p_size p + 3; p_cache := cache; p_named := S (p_named p) |} (ps ++ [inr ex]) (l ++ [FA (p_named p)])).
    { intros cache HC. destruct H. constructor; cbn [p_format p_args p_cache p_named].
      - rewrite concat_map_snoc, ek_fmt0. reflexivity.
      - apply Forall_app. split; [|repeat constructor; cbn; lia]. eapply Forall_impl; [|exact ek_bound0]. cbn. intros. lia.
      - rewrite map_app. cbn. apply Permutation.Permutation_NoDup with (l := p_named p :: map fst (p_args p)).
        + apply Permutation.Permutation_cons_append.
        + constructor; [|exact ek_dup0]. intros Hin. apply in_map_iff in Hin as (a & Ha & Hin).
          rewrite Forall_forall in ek_bound0. apply ek_bound0 in Hin. lia.
      - exact HC.
      - apply run_new; assumption. }
    destruct (cache_get ex (p_cache p)) as [id|] eqn:E.
    - destruct cacheable.
      + exists (FA id). apply cache_get_In in E. destruct H. constructor; cbn [p_format p_args p_cache p_named]; auto.
        * rewrite concat_map_snoc, ek_fmt0. reflexivity.
        * apply run_old; auto.
      + eexists. apply New. intros r0 id0 Hin. apply in_or_app. left. apply (ek_cache _ _ _ H). exact Hin.
    - eexists. apply New. intros r0 id0 [K|Hin].
      + injection K as <- <-. apply in_or_app. right. left. reflexivity.
      + apply in_or_app. left. apply (ek_cache _ _ _ H). exact Hin.
  Qed.

  (** The pieces of the pending items *)
  Inductive piece_of (inp : ginput) (m : chain) : writable -> str + rexpr -> Prop :=
  | pc_text s : piece_of inp m (WLit s) (inl s)
  | pc_expr e r wr : visit_expr inp m e = Ok (r, wr) -> piece_of inp m (WExpr e) (inr (if wr then r else RMarkup (f_escaper inp) r))
  | pc_gen r (wr : bool) : piece_of inp m (WGen r wr) (inr (if wr then r else RMarkup (f_escaper inp) r)).
  Lemma format_loop_eff inp m ws : quiet_aliases m ->
    Forall (fun i => match i with WExpr e => has_call e = true \/ has_user_filter e = false | _ => True end) ws ->
    forall p ps l p', eok p ps l -> format_loop inp m ws p = Ok p' ->
    exists qs l', Forall2 (piece_of inp m) ws qs /\ eok p' (ps ++ qs) l'.
  Proof.
    intros Hm. induction ws as [|i ws IH]; intros HW p ps l p' H E; cbn [format_loop] in E.
    - injection E as <-. exists [], l. rewrite app_nil_r. split; [constructor|exact H].
    - inversion HW as [|? ? HI HW']; subst. specialize (IH HW').
      assert (STEP : forall q y p1, eok p1 (ps ++ [q]) y -> piece_of inp m i q -> format_loop inp m ws p1 = Ok p' ->
        exists qs l', Forall2 (piece_of inp m) (i :: ws) qs /\ eok p' (ps ++ qs) l').
      { intros q y p1 K1 K2 K3. destruct (IH _ _ _ _ K1 K3) as (qs & l' & A & B). exists (q :: qs), l'. split; [constructor; assumption|].
        rewrite <- app_assoc in B. exact B. }
      destruct i as [s|e|r wr].
      + eapply STEP; [|constructor|exact E]. instantiate (1 := l ++ [FL s]). destruct H. constructor; cbn [p_format p_args p_cache p_named]; auto.
        * rewrite concat_map_snoc, ek_fmt0. reflexivity.
        * apply run_text. assumption.
      + destruct (visit_expr inp m e) as [[r wr]| |] eqn:VE; try discriminate E. cbn [rbind] in E.
        destruct (named_expression_eff inp p ps l r wr (is_cacheable e) H) as [y Hy].
        { rewrite cacheable_no_call. intros C. apply negb_true_iff in C. destruct HI as [HI|HI]; [congruence|].
          pose proof (visit_quiet inp m Hm e C HI r wr VE) as Q. destruct wr; exact Q. }
        eapply STEP; [exact Hy|constructor; exact VE|exact E].
      + destruct (named_expression_eff inp p ps l r wr false H) as [y Hy]; [discriminate|].
        eapply STEP; [exact Hy|constructor|exact E].
  Qed.
  Lemma fmt_shown vals l vs : Forall2 (fp_shown vals) l vs -> fmt_text w vals (concat (map fp_pieces l)) = show_all w vs.
  Proof.
    induction 1 as [|y s l vs H _ IH]; [reflexivity|]. cbn [map concat]. rewrite fmt_text_app, IH. destruct y as [a|id], s as [b|v]; cbn [fp_shown] in H; try contradiction.
    - subst b. cbn [fp_pieces]. rewrite fmt_text_chars. cbn [show_all]. destruct (show_all w vs); reflexivity.
    - cbn [fp_pieces fmt_text show_all]. rewrite H. cbn [obind]. destruct (w_display w v); cbn [obind]; [|reflexivity].
      rewrite app_nil_r. destruct (show_all w vs); reflexivity.
  Qed.
  Lemma lits_shown ws : all_lits ws = true -> show_all w (map (fun i => ShText w (match i with WLit s => s | _ => [] end)) ws) = Some (lits_text ws).
  Proof.
    induction ws as [|i ws IH]; intros H; [reflexivity|]. cbn [all_lits forallb] in H. apply andb_prop in H as [_ H].
    cbn [map show_all]. rewrite IH by exact H. reflexivity.
  Qed.
  Lemma lits_eff ws t : eff_map T piece_eff (map (fun i => inl (match i with WLit s => s | _ => [] end)) ws) t =
    (Done (map (fun i => ShText w (match i with WLit s => s | _ => [] end)) ws), t).
  Proof. induction ws as [|i ws IH]; [reflexivity|]. cbn [map eff_map piece_eff]. unfold ebnd, pure. rewrite IH. reflexivity. Qed.
  Lemma lits_pieces inp m ws : all_lits ws = true -> Forall2 (piece_of inp m) ws (map (fun i => inl (match i with WLit s => s | _ => [] end)) ws).
  Proof.
    induction ws as [|i ws IH]; intros H; [constructor|]. cbn [all_lits forallb] in H. apply andb_prop in H as [H1 H2].
    destruct i; try discriminate H1. constructor; [constructor|auto].
  Qed.
  Theorem prepare_format_eff inp m ws named z parts named' : quiet_aliases m ->
    Forall (fun i => match i with WExpr e => has_call e = true \/ has_user_filter e = false | _ => True end) ws ->
    prepare_format inp m ws named = Ok (z, parts, named') ->
    exists qs, Forall2 (piece_of inp m) ws qs /\ forall t, xparts w T x en st parts t = xpieces w T x en st qs t.
  Proof.
    intros Hm HW E. unfold prepare_format in E. destruct ws as [|i ws].
    { injection E as <- <- <-. exists []. split; [constructor|]. reflexivity. }
    set (l0 := i :: ws) in *. clearbody l0. clear i ws. destruct (all_lits l0) eqn:L.
    { injection E as <- <- <-. eexists. split; [apply lits_pieces; exact L|]. intros t. unfold xpieces. change (eff_map T (fun p => _)) with (eff_map T piece_eff).
      unfold ebnd. rewrite lits_eff. cbn [xparts]. unfold pure. rewrite lits_shown by exact L. reflexivity. }
    destruct (format_loop inp m l0 _) as [p| |] eqn:F; try discriminate E. cbn [rbind] in E. injection E as <- <- <-.
    eapply format_loop_eff with (ps := []) (l := []) in F; [|exact Hm|exact HW|].
    2: { constructor; [reflexivity|constructor|constructor|intros r id []|intros u; cbn; repeat split; constructor]. }
    destruct F as (qs & l & HP & HK). exists qs. split; [exact HP|]. intros t. cbn [app] in HK. destruct HK.
    unfold xpieces. cbn [xparts]. unfold xformat.
    change (eff_map T (fun p0 : str + rexpr => _)) with (eff_map T piece_eff). change (eff_map T (fun a : nat * rexpr => _)) with (eff_map T arg_eff).
    specialize (ek_run0 t). unfold ebnd.
    destruct (eff_map T arg_eff (p_args p) t) as [[vals| |] t1], (eff_map T piece_eff qs t) as [[vs| |] t2]; try contradiction; try (rewrite ek_run0; reflexivity).
    destruct ek_run0 as (<- & _ & HS). rewrite ek_fmt0, fmt_parse_pieces. cbn [of_opt obnd]. rewrite (fmt_shown _ _ _ HS). reflexivity.
  Qed.
End Run.
