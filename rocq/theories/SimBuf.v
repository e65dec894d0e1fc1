(** * Pending output during the simulation. *)
From Coq Require Import ZArith ZifyBool ZifyNat ZifyN.
From Verif Require Import Base Ws Ast Ident IdentFacts GenExpr Heritage Gen Sem RefSem RexprFacts FlushFacts Scoped SimExpr SimFacts GenSteps SimRel.
Local Open Scope N_scope.

Section Buf.
  Variables (w : world) (inp : ginput).
  Notation lookup := (lookup w).
  Notation item_expr := (item_expr inp).
  Notation pend_val := (pend_val w inp).

  Definition keys_ok (m : chain) : Prop :=
    forall k, ch_get m k <> None -> (exists x, good x = true /\ k = norm x) \/ (exists id, k = filter_block_name id).
  Definition refs_ok (A1 : list str) (m : chain) : Prop :=
    forall x meta r, good x = true -> ch_get m (norm x) = Some meta -> l_refs meta = Some r -> normalize_text r = r /\ ref_names A1 r.
  Lemma rel_refs A1 A2 F G m te re st lp : Rel w A1 A2 F G m te re st lp -> refs_ok A1 m.
  Proof.
    intros R x meta r Hg E El. pose proof (r_some _ _ _ _ _ _ _ _ _ _ R x meta Hg E) as S. unfold slot_rel in S. rewrite El in S.
    destruct (get x G) as [[]|]; tauto.
  Qed.
  Lemma keys_reserved m y : keys_ok m -> In y reserved -> ch_get m (norm y) = None.
  Proof.
    intros K H. destruct (ch_get m (norm y)) eqn:E; [|reflexivity]. exfalso.
    assert (NH : no_hash y) by (cbn in H; repeat (destruct H as [<-|H]; [vm_compute; intuition discriminate|]); destruct H).
    destruct (K (norm y)) as [(x & Hx & N)|(id & N)]; [congruence| |].
    - apply normalize_inj in N; [|exact NH|apply good_hash; exact Hx]. subst. exact (good_reserved _ Hx H).
    - assert (is_fb (norm y) = true) by (rewrite N; apply fb_name_is).
      cbn in H. repeat (destruct H as [<-|H]; [discriminate H0|]). exact H.
  Qed.
  Lemma same_reserved m m' y : keys_ok m -> keys_ok m' -> In y reserved -> same_res m m' y.
  Proof. intros K K' H. unfold same_res, ch_resolve. cbv zeta. rewrite !keys_reserved by assumption. reflexivity. Qed.
  Lemma same_get m m' y : ch_get m (norm y) = ch_get m' (norm y) -> same_res m m' y.
  Proof. unfold same_res, ch_resolve. cbv zeta. intros ->. reflexivity. Qed.

  (** The items can be written. *)
  Definition vis (m : chain) (b : list writable) : Prop := Forall (fun x => exists r, item_expr m x = Ok r) b.
  Lemma prepare_vis m b named z parts named' : prepare_format inp m b named = Ok (z, parts, named') -> vis m b.
  Proof.
    unfold prepare_format. intros E. destruct b as [|x b]; [constructor|]. set (l0 := x :: b) in *. clearbody l0. clear x b.
    destruct (all_lits l0) eqn:L.
    { clear E. induction l0 as [|x l0 IH]; [constructor|]. cbn in L. apply andb_prop in L as [L1 L2]. constructor; [|apply IH; exact L2].
      destruct x; try discriminate L1. exists None. reflexivity. }
    destruct (format_loop inp m l0 _) as [p| |] eqn:F; try discriminate E.
    eapply format_loop_ok with (done := []) (l := []) in F.
    2: { constructor; cbn; try constructor. intros r id []. }
    destruct F as [l F]. cbn [app] in F. pose proof (fk_items _ _ _ _ _ F) as I. clear - I.
    induction I as [|x y l0 l Hx Hl IH]; constructor; [|exact IH]. destruct y; cbn in Hx.
    - subst. exists None. reflexivity.
    - destruct Hx as (r & Hr & _). eauto.
  Qed.

  Definition writ_ok (A1 F : list str) (m : chain) (x : writable) : Prop :=
    match x with
    | WLit _ => True
    | WExpr e => plain e = true /\ forall y, In y (fv e) -> y = lit "loop" \/ (good y = true /\ (ch_get m (norm y) <> None \/ In y F))
    | WGen r _ => forall n, In n (rnames r) -> n = lit "self" \/ live A1 m n
    end.
  Definition PInv (A1 F : list str) (m : chain) (re : env w) (st : store w) (b : list writable) (p : text) : Prop :=
    Forall (writ_ok A1 F m) b /\ (vis m b -> pend_val m re st b = Done p).
  Lemma PInv_nil A1 F m re st : PInv A1 F m re st [] (Some []).
  Proof. split; [constructor|reflexivity]. Qed.
  Lemma PInv_nil_inv A1 F m re st p : PInv A1 F m re st [] p -> p = Some [].
  Proof. intros [_ H]. specialize (H (Forall_nil _)). cbn in H. congruence. Qed.

  Lemma tapp_assoc a b c : tapp (tapp a b) c = tapp a (tapp b c).
  Proof. destruct a, b, c; try reflexivity. cbn. rewrite app_assoc. reflexivity. Qed.
  Lemma tapp_nil_r a : tapp a (Some []) = a.
  Proof. destruct a; [|reflexivity]. cbn. rewrite app_nil_r. reflexivity. Qed.
  Lemma tapp_nil_l a : tapp (Some []) a = a.
  Proof. destruct a; reflexivity. Qed.
  Lemma tapp_none_r a : tapp a None = None.
  Proof. destruct a; reflexivity. Qed.
  Lemma pend_val_app m re st a b x y : pend_val m re st a = Done x -> pend_val m re st b = Done y -> pend_val m re st (a ++ b) = Done (tapp x y).
  Proof.
    revert x. induction a as [|i a IH]; intros x Hx Hy; cbn [FlushFacts.pend_val app] in *.
    - injection Hx as <-. rewrite Hy, tapp_nil_l. reflexivity.
    - destruct (item_val w inp m re st i) as [t| |]; try discriminate Hx. cbn [obnd] in *.
      destruct (pend_val m re st a) as [t'| |]; try discriminate Hx. cbn [obnd] in *. injection Hx as <-.
      rewrite (IH _ eq_refl Hy). cbn [obnd]. rewrite tapp_assoc. reflexivity.
  Qed.
  Lemma PInv_add A1 F m re st b p x t : PInv A1 F m re st b p -> writ_ok A1 F m x ->
    ((exists r, item_expr m x = Ok r) -> item_val w inp m re st x = Done t) -> PInv A1 F m re st (b ++ [x]) (tapp p t).
  Proof.
    intros [H1 H2] Hx Ht. split.
    - apply Forall_app. split; [exact H1|]. constructor; [exact Hx|constructor].
    - intros V. apply Forall_app in V as [V1 V2]. inversion V2; subst.
      apply pend_val_app; [apply H2; exact V1|]. cbn [FlushFacts.pend_val]. rewrite Ht by assumption. cbn [obnd]. rewrite tapp_nil_r. reflexivity.
  Qed.
  Lemma PInv_lits A1 F m re st ls : forall b p, PInv A1 F m re st b p -> PInv A1 F m re st (b ++ map WLit ls) (tapp p (Some (concat ls))).
  Proof.
    induction ls as [|s ls IH]; intros b p H; cbn [map concat]; [rewrite app_nil_r, tapp_nil_r; exact H|].
    change (b ++ WLit s :: map WLit ls) with (b ++ [WLit s] ++ map WLit ls). rewrite app_assoc.
    replace (tapp p (Some (s ++ concat ls))) with (tapp (tapp p (Some s)) (Some (concat ls))) by (rewrite tapp_assoc; reflexivity).
    apply IH. apply PInv_add; [exact H|exact I|]. reflexivity.
  Qed.

  (** Nothing pending changes its value as long as the names it mentions stand for the same. *)
  Lemma live_names A1 F m e : refs_ok A1 m -> writ_ok A1 F m (WExpr e) ->
    names_ok inp m (fun n => n = lit "self" \/ live A1 m n) e.
  Proof.
    intros RO [Hp Hf]. apply visit_names; [left; reflexivity|right; left; reflexivity|exact Hp|].
    intros x Hx HL. destruct (Hf x Hx) as [->|[Hg Hk]]; [congruence|].
    assert (A : names_in (fun n => n = lit "self" \/ live A1 m n) (match ch_get m (norm x) with
      | Some meta => match l_refs meta with Some r => r | None => RName (norm x) end | None => RField self (norm x) end)).
    { destruct (ch_get m (norm x)) as [meta|] eqn:E.
      - destruct (l_refs meta) as [r|] eqn:El.
        + intros n Hn. destruct (RO x meta r Hg E El) as [_ RN]. destruct (RN n Hn) as [->|(a & Ha & ->)]; [left; reflexivity|]. right. right. right. eauto.
        + intros n [<-|[]]. right. right. left. congruence.
      - intros n [<-|[]]. left. reflexivity. }
    split.
    - rewrite visit_var_cases by exact Hg. destruct (ch_get m (norm x)) as [meta|] eqn:E; [|exact A]. destruct (l_refs meta) as [r|] eqn:El; [|exact A].
      rewrite (proj1 (RO x meta r Hg E El)). exact A.
    - unfold callee_of, ch_resolve. destruct (ch_get m (norm x)) as [meta|]; [|exact A]. destruct (l_refs meta); exact A.
  Qed.
  Lemma rshow_stable re re' st st' r t : mono w st st' -> (forall n, In n (rnames r) -> n = lit "self" \/ lookup re' n = lookup re n) ->
    rshow w re st r = Done t -> rshow w re' st' r = Done t.
  Proof.
    intros M H E. unfold rshow in *. rewrite (reval_stable w re re' st st' M r); [exact E|exact H|]. intros U. rewrite U in E. discriminate E.
  Qed.
  Lemma wrap_names esc (wr : bool) r n : In n (rnames (if wr then r else RMarkup esc r)) -> In n (rnames r).
  Proof. destruct wr; exact (fun x => x). Qed.
  Theorem PInv_step A1 A1' F F' m m' re re' st st' b p : PInv A1 F m re st b p -> refs_ok A1 m -> keys_ok m -> keys_ok m' ->
    (forall y, good y = true -> ch_get m (norm y) <> None \/ In y F -> same_res m m' y /\ (ch_get m' (norm y) <> None \/ In y F')) ->
    (forall n, live A1 m n -> live A1' m' n /\ lookup re' n = lookup re n) -> mono w st st' -> PInv A1' F' m' re' st' b p.
  Proof.
    intros [H1 H2] RO K K' HS HL M.
    assert (SE : forall e, writ_ok A1 F m (WExpr e) -> visit_expr inp m e = visit_expr inp m' e).
    { intros e [Hp Hf]. apply visit_ext; [apply same_reserved; auto; left; reflexivity|]. intros x Hx. destruct (Hf x Hx) as [->|[Hg Hk]].
      - apply same_reserved; auto. right. left. reflexivity.
      - exact (proj1 (HS x Hg Hk)). }
    assert (SI : forall x, writ_ok A1 F m x -> item_expr m x = item_expr m' x).
    { intros x Hx. destruct x as [s|e|r wr]; try reflexivity. cbn [FlushFacts.item_expr]. rewrite (SE e Hx). reflexivity. }
    split.
    - eapply Forall_impl; [|exact H1]. intros x Hx. destruct x as [s|e|r wr]; [exact I| |].
      + destruct Hx as [Hp Hf]. split; [exact Hp|]. intros y Hy. destruct (Hf y Hy) as [->|[Hg Hk]]; [left; reflexivity|right]. split; [exact Hg|]. exact (proj2 (HS y Hg Hk)).
      + intros n Hn. destruct (Hx n Hn) as [->|Hv]; [left; reflexivity|right; exact (proj1 (HL n Hv))].
    - intros V.
      assert (V' : vis m b).
      { clear H2. induction V as [|x b Hx V IH]; constructor; inversion H1; subst; [rewrite SI by assumption; exact Hx|apply IH; assumption]. }
      specialize (H2 V'). clear V V'. revert p H2. induction H1 as [|x b Hx Hb IH]; intros p E; cbn [FlushFacts.pend_val] in *; [exact E|].
      destruct (item_val w inp m re st x) as [t| |] eqn:Ex; try discriminate E. cbn [obnd] in E.
      destruct (pend_val m re st b) as [t'| |]; try discriminate E. cbn [obnd] in E. injection E as <-. rewrite (IH _ eq_refl).
      enough (item_val w inp m' re' st' x = Done t) as -> by reflexivity.
      destruct x as [s|e|r wr]; [exact Ex| |].
      + cbn [item_val FlushFacts.item_expr] in *. rewrite <- (SE e Hx). destruct (visit_expr inp m e) as [[r wr]| |] eqn:Ev; try discriminate Ex. cbn [rbind] in *.
        eapply rshow_stable; [exact M| |exact Ex]. intros n Hn. apply wrap_names in Hn. destruct (live_names A1 F m e RO Hx r wr Ev n Hn) as [->|Hv]; [left; reflexivity|].
        right. exact (proj2 (HL n Hv)).
      + cbn [item_val FlushFacts.item_expr] in *. eapply rshow_stable; [exact M| |exact Ex]. intros n Hn. apply wrap_names in Hn. destruct (Hx n Hn) as [->|Hv]; [left; reflexivity|].
        right. exact (proj2 (HL n Hv)).
  Qed.

  Notation exec_list := (exec_list w (exec w)).
  Theorem flush_exec A1 F m re st b p c : PInv A1 F m re st b p -> flushed inp m b c ->
    exec_list c re st = match p with Some s => Done (s, re, st, Next) | None => Fails end.
  Proof.
    intros [_ H] (named & z & parts & named' & E & ->). specialize (H (prepare_vis _ _ _ _ _ _ E)).
    pose proof (prepare_format_val w inp m re st b named z parts named' p E H) as P. destruct parts as [|t|f a]; cbn [parts_val parts_code] in *.
    - destruct p; [|discriminate P]. injection P as <-. reflexivity.
    - destruct p; [|discriminate P]. injection P as <-. cbn. rewrite app_nil_r. reflexivity.
    - cbn [Sem.exec_list exec]. rewrite P. destruct p; [|reflexivity]. cbn. rewrite app_nil_r. reflexivity.
  Qed.
  (** The value of an expression put into the buffer *)
  Lemma show_item A1 A2 F G m te re st lp e t : world_ok w -> Rel w A1 A2 F G m te re st lp -> scoped_expr F A2 G e = true ->
    show_expr w inp te st lp Unset e = Done t -> writ_ok A1 F m (WExpr e) /\
    ((exists r, item_expr m (WExpr e) = Ok r) -> item_val w inp m re st (WExpr e) = Done t).
  Proof.
    intros wok R HS E. split.
    - destruct (scoped_inv w A1 A2 F G m te re st lp R e HS) as (Hp & Hf & _). split; [exact Hp|]. intros y Hy.
      destruct (str_eqb y (lit "loop")) eqn:L; [left; apply str_eqb_eq; exact L|right]. apply str_eqb_neq in L. destruct (Hf y Hy L) as [Hg Hk]. split; [exact Hg|].
      destruct Hk as [Hk|Hk]; [right; exact Hk|left]. destruct (known_key w A1 A2 F G m te re st lp R y Hk) as (meta & _ & Em). congruence.
    - intros (r & Hr). cbn [item_val FlushFacts.item_expr] in *. apply rbind_Ok in Hr as ([r' wr] & Ev & Hr). cbv beta iota in Hr. injection Hr as <-. rewrite Ev. cbn [rbind].
      pose proof (rel_expr w inp A1 A2 F G m te re st lp R wok e Unset HS r' wr Ev) as A. rewrite (visit_wrap _ _ _ _ _ Ev). clear Ev wr.
      unfold rshow, show_expr, shown in *. destruct (teval w inp te st lp Unset e) as [v| |]; try discriminate E; injection E as <-; specialize (A ltac:(discriminate)).
      + destruct (opts_out e); cbn [reval]; rewrite A; reflexivity.
      + destruct (opts_out e); cbn [reval]; rewrite A; reflexivity.
  Qed.
End Buf.
