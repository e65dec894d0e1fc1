(** * Templates with effects: what the template means is what its expressions do one by one. *)
From Coq Require Import ZArith ZifyBool ZifyNat ZifyN.
From Verif Require Import Base Ws Ast Ident IdentFacts GenExpr Heritage Gen Sem RefSem RexprFacts FlushFacts Scoped HeritageFacts SimExpr SimFacts GenSteps GenElab SimRel SimBuf SimNode SimCtl SimScope Sim Effect EffectFacts EffSem EffOrder EffRef EffExpr EffAny.
Local Open Scope N_scope.

Lemma place_quiet e : simple_place e = true -> has_call e = false /\ has_user_filter e = false.
Proof.
  induction e; intros H; try discriminate H; [split; reflexivity|]. cbn [simple_place has_call has_user_filter] in *.
  destruct (var_loop e) eqn:L; [destruct e; try discriminate L; split; reflexivity|]. exact (IHe H).
Qed.
Lemma format_accepts inp m ws : forall p p', format_loop inp m ws p = Ok p' -> forall e, In (WExpr e) ws -> exists r wr, visit_expr inp m e = Ok (r, wr).
Proof.
  induction ws as [|i ws IH]; intros p p' E e H; [destruct H|]; destruct H as [->|H]; cbn [format_loop] in E.
  - apply rbind_Ok in E as ([r wr] & E & _). eauto.
  - destruct i as [s|e0|r wr]; [eapply IH; eassumption| |eapply IH; eassumption]. apply rbind_Ok in E as ([r wr] & _ & E). cbv beta iota in E. eapply IH; eassumption.
Qed.
(** No variable is without a value. *)
Definition settled (G : vars) : Prop := forall y, unset G y = false.
Lemma settled_bind xs G : settled G -> settled (bind_vars false xs G).
Proof.
  intros H y. unfold unset, bind_vars. rewrite get_app. destruct (get y (rev (map (fun x => (x, false)) xs))) as [b|] eqn:E; [|exact (H y)].
  assert (In (y, b) (rev (map (fun x => (x, false)) xs))) as HI.
  { clear H. revert E. generalize (rev (map (fun x => (x, false)) xs)). intros l. induction l as [|[k v] l IH]; cbn [get]; [discriminate|].
    destruct (str_eqb y k) eqn:Ek; [intros [= ->]; apply str_eqb_eq in Ek; subst; left; reflexivity|right; auto]. }
  apply in_rev in HI. apply in_map_iff in HI as (z & Hz & _). congruence.
Qed.

Section Meaning.
  Variables (w : world) (T : Type) (x : effects w T) (inp : ginput).
  Hypothesis wok : world_ok w.
  Notation act := (act T).
  Notation env := (env w).
  Notation V := (V w).
  Notation meets := (meets T).
  Notation bnd := (bnd T).
  Notation ret := (ret T).
  Notation opt := (opt T).
  Notation write := (write T).
  Notation seq := (seq T).
  Notation stop := (stop T).
  Notation xteval := (xteval w T x inp).
  Notation tmean := (tmean w T x inp).
  Notation rmean := (rmean w T x inp).
  Notation tl := (tlist w T tmean).
  Notation rl lp := (rlist w T (rmean lp)).

  Lemma meets_write c c' k k' : meets c c' -> meets k k' -> meets (write c k) (write c' k').
  Proof. intros H1 H2. apply meets_bnd; [exact H1|]. intros s. apply meets_bnd; [exact H2|]. intros r. apply meets_refl. Qed.
  Lemma meets_seq a a' k k' : meets a a' -> meets k k' -> meets (seq a k) (seq a' k').
  Proof. intros H1 H2. apply meets_bnd; [exact H1|]. intros [s []]; cbn [snd]; [|apply meets_refl|apply meets_refl]. apply meets_bnd; [exact H2|]. intros r. apply meets_refl. Qed.
  Lemma meets_loop keep keep' body body' l : (forall v, meets (keep v) (keep' v)) -> (forall i f la v, meets (body i f la v) (body' i f la v)) ->
    meets (xloop w T keep body l) (xloop w T keep' body' l).
  Proof.
    intros K H. assert (R : forall l i cur, meets (xrounds w T keep body l i cur) (xrounds w T keep' body' l i cur)).
    { clear l. induction l as [|v l IH]; intros i cur; cbn [xrounds]; [apply meets_bnd; [apply H|intros r; apply meets_refl]|].
      apply meets_bnd; [apply K|]. intros [|]; [|apply IH]. apply meets_bnd; [apply H|]. intros [s []]; cbn [fst snd]; try apply meets_refl;
        (apply meets_bnd; [apply IH|intros r; apply meets_refl]). }
    induction l as [|v l IH]; cbn [xloop]; [apply meets_refl|]. apply meets_bnd; [apply K|]. intros [|]; [|exact IH].
    apply meets_bnd; [apply R|]. intros r. apply meets_refl.
  Qed.
  Lemma meets_bnd2 {A B B' C : Type} (a : eff T A) (a' : eff T A) (f : A -> eff T B) (f' : A -> eff T B') (k : B -> eff T C) (k' : B' -> eff T C) :
    meets a a' -> (forall v, meets (bnd (f v) k) (bnd (f' v) k')) -> meets (bnd (bnd a f) k) (bnd (bnd a' f') k').
  Proof.
    intros H1 H2 t Hn. rewrite (bnd_assoc T a f k t) in *. rewrite (bnd_assoc T a' f' k' t). apply (meets_bnd T a a' _ _ H1 H2). exact Hn.
  Qed.

  (** The variables of the template and of the code *)
  Record Good (A1 A2 F : list str) (G : vars) (m : chain) (te re : env) (lp : lpos) : Prop := {
    g_rel : Rel w A1 A2 F G m te re [] lp;
    g_quiet : quiet_aliases m;
    g_set : settled G
  }.
  Lemma Good_chain A1 A2 F G m m' te re lp : (forall k, ch_get m' k = ch_get m k) -> Good A1 A2 F G m te re lp -> Good A1 A2 F G m' te re lp.
  Proof. intros H [R Q S]. constructor; [eapply Rel_chain; eassumption|exact (quiet_get _ _ H Q)|exact S]. Qed.
  Lemma Good_push A1 A2 F G m te re lp : Good A1 A2 F G m te re lp -> Good A1 A2 F G (ch_push m) te re lp.
  Proof. apply Good_chain, ch_get_push. Qed.
  Lemma good_expr A1 A2 F G m te re lp e : Good A1 A2 F G m te re lp -> scoped_expr F A2 G e = true -> xagree w T x inp m te re lp e.
  Proof.
    intros [R Q _] H. destruct (scoped_inv w A1 A2 F G m te re [] lp R e H) as (Hp & Hf & Hc).
    apply visit_xteval; [exact wok|exact Q|exact (r_loop _ _ _ _ _ _ _ _ _ _ R)|exact Hp| |].
    - intros y Hy HL. destruct (Hf y Hy HL). eapply rel_var; eassumption.
    - intros y Hy. destruct (called_fv e y Hp Hy) as [Hx1 HL]. destruct (Hf y Hx1 HL). eapply rel_call; [eassumption|assumption|assumption|]. exact (Hc y Hy).
  Qed.
  Lemma good_root A1 A2 F G m te re lp e r : Good A1 A2 F G m te re lp -> scoped_expr F A2 G e = true -> visit_expr_root inp m e = Ok r ->
    meets (xteval te lp e) (xeval w T x re [] r).
  Proof. intros R H E. unfold visit_expr_root in E. apply rbind_Ok in E as ((r' & wr) & E & E'). injection E' as <-. eapply good_expr; eassumption. Qed.
  Lemma good_bind A1 A2 F G m m1 te re lp t p v : Good A1 A2 F G m te re lp -> scoped_target A1 A2 t = true -> visit_target m true t = Ok (p, m1) ->
    match pmatch w t v with
    | Some bs => pmatch w p v = Some (map norm_fst bs) /\
                 Good A1 A2 (minus F (pattern_names t)) (bind_vars false (pattern_names t) G) m1 (bind_vals w bs te) (bind_vals w (map norm_fst bs) re) lp
    | None => pmatch w p v = None
    end.
  Proof.
    intros [R Q S] HT V0. pose proof (bind_test w A1 A2 F G m m1 te re [] lp t p v R HT V0) as B. destruct (pmatch w t v) as [bs|]; [|exact B]. destruct B as [B1 B2].
    split; [exact B1|]. constructor; [exact B2|exact (quiet_target _ _ _ _ _ V0 Q)|apply settled_bind, S].
  Qed.
  Lemma good_holds A1 A2 F G m te re lp e r : Good A1 A2 F G m te re lp -> scoped_expr F A2 G e = true -> visit_expr_root inp m e = Ok r ->
    meets (xholds w T x inp te lp e) (xtruth w T x re r).
  Proof. intros R H E. apply meets_bnd; [eapply good_root; eassumption|]. intros v. apply meets_refl. Qed.

  (** ** Tests *)
  Lemma test_meets {C} A1 A2 F G m te re lp t rt m1 F' G' (k k' : option env -> eff T C) : Good A1 A2 F G m te re lp -> test_code inp m t rt m1 -> scoped_test F A1 A2 G t = Some (F', G') ->
    (forall te' re', Good A1 A2 F' G' m1 te' re' lp -> meets (k (Some te')) (k' (Some re'))) -> meets (k None) (k' None) ->
    meets (bnd (rtest w T x inp te lp t) k) (bnd (xtest w T x rt re) k').
  Proof.
    intros R TC HS HK HN. destruct t as [[tg e]|]; cbn [test_code scoped_test rtest] in *.
    2: { destruct TC as [-> ->]. injection HS as <- <-. exact (HK te re R). }
    cbn [ct_target ct_expr] in *. destruct tg as [p|].
    2: { destruct TC as (e' & V0 & -> & ->). destruct (scoped_expr F A2 G e) eqn:HE; [|discriminate HS]. injection HS as <- <-. cbn [xtest].
         apply meets_bnd2; [eapply good_holds; eassumption|]. intros [|]; [exact (HK te re R)|exact HN]. }
    cbv zeta in HS.
    assert (Simple : forall e, (exists e' p', visit_expr_root inp m e = Ok e' /\ visit_target m true p = Ok (p', m1) /\ rt = RIfLet p' e') ->
      scoped_target A1 A2 p = true -> scoped_expr F A2 G e = true -> F' = minus F (pattern_names p) -> G' = bind_vars false (pattern_names p) G ->
      meets (bnd (bnd (xteval te lp e) (fun v => ret (match pmatch w p v with Some bs => Some (bind_vals w bs te) | None => None end))) k) (bnd (xtest w T x rt re) k')).
    { clear e TC HS. intros e (e' & p' & V0 & VT & ->) HT HE -> ->. cbn [xtest]. apply meets_bnd2; [eapply good_root; eassumption|]. intros v.
      pose proof (good_bind A1 A2 F G m m1 te re lp p p' v R HT VT) as BT.
      destruct (pmatch w p v) as [bs|]; [destruct BT as [-> BT]; exact (HK _ _ BT)|rewrite BT; exact HN]. }
    destruct (scoped_target A1 A2 p) eqn:HT; [|discriminate HS]. cbn [andb] in HS.
    assert (C0 : (exists op l r, e = BinOp op l r) \/ match e with BinOp _ _ _ => False | _ => True end) by (destruct e; try (right; exact I); left; eauto).
    destruct C0 as [(op & l & r & ->)|C0].
    - destruct (str_eqb op (lit "&&")) eqn:Ea.
      + rewrite orb_true_r in TC. destruct TC as (l' & p' & r' & Vl & VT & Vr & ->). cbn [xtest].
        destruct (scoped_expr F A2 G l) eqn:Hl; [|discriminate HS]. destruct (is_and_or l) eqn:Hc; [discriminate HS|]. cbn [negb andb] in HS.
        destruct (scoped_expr (minus F (pattern_names p)) A2 (bind_vars false (pattern_names p) G) r) eqn:Hr; [|discriminate HS]. injection HS as <- <-. rewrite Ea.
        pose proof Vl as Vl'. unfold visit_expr_root in Vl'. apply rbind_Ok in Vl' as ([l1 wr] & Vl1 & Vl2). injection Vl2 as ->.
        rewrite (not_chain l' (visit_chain w inp A1 A2 F G m te re [] lp l l' wr (g_rel _ _ _ _ _ _ _ _ R) Hl Hc Vl1)).
        apply meets_bnd2; [eapply good_root; eassumption|]. intros v. pose proof (good_bind A1 A2 F G m m1 te re lp p p' v R HT VT) as BT.
        destruct (pmatch w p v) as [bs|]; [|rewrite BT; exact HN]. destruct BT as [-> BT]. cbn [app xall_true].
        apply meets_bnd2.
        * intros t Hn. rewrite <- (good_holds A1 A2 _ _ m1 _ _ lp r r' BT Hr Vr t Hn). unfold EffSem.bnd, EffSem.ret, ebnd, pure.
          destruct (xtruth w T x _ r' t) as [[[]| |] t']; reflexivity.
        * intros [|]; [exact (HK _ _ BT)|exact HN].
      + destruct (str_eqb op (lit "||")) eqn:Eo; [discriminate HS|]. cbn [orb negb andb] in *. destruct (scoped_expr F A2 G (BinOp op l r)) eqn:HE; [|discriminate HS]. injection HS as <- <-.
        apply (Simple (BinOp op l r)); auto.
    - assert (HE : scoped_expr F A2 G e = true /\ F' = minus F (pattern_names p) /\ G' = bind_vars false (pattern_names p) G).
      { destruct e; try destruct C0; match type of HS with (if ?c then _ else _) = _ => destruct c; [|discriminate HS] end; injection HS as <- <-; auto. }
      destruct HE as (HE & HF & HG).
      assert (TC' : exists e' p', visit_expr_root inp m e = Ok e' /\ visit_target m true p = Ok (p', m1) /\ rt = RIfLet p' e') by (destruct e; try destruct C0; exact TC).
      pose proof (Simple e TC' eq_refl HE HF HG) as M. destruct e; try destruct C0; exact M.
  Qed.
  Lemma keep_meets A1 A2 F G m te re lp t cnd flt m1 : Good A1 A2 F G m te re lp -> scoped_target A1 A2 t = true ->
    match cnd with Some c => scoped_expr (minus F (pattern_names t)) A2 (bind_vars false (pattern_names t) G) c | None => true end = true ->
    match cnd with
    | None => flt = None /\ m1 = m
    | Some e => exists p0 mc e', visit_target (ch_push m) true t = Ok (p0, mc) /\ visit_expr_root inp mc e = Ok e' /\ ch_pop mc = Ok m1 /\ flt = Some (p0, e')
    end -> forall v, meets (rkeep w T x inp te lp t cnd v) (xkeep w T x re flt v).
  Proof.
    intros R HT HC HF v. destruct cnd as [c|]; [|destruct HF as [-> _]; apply meets_refl]. destruct HF as (p0 & mc & e' & VT & VE & _ & ->). cbn [rkeep xkeep].
    pose proof (good_bind A1 A2 F G (ch_push m) mc te re lp t p0 v (Good_push _ _ _ _ _ _ _ _ R) HT VT) as BT.
    destruct (pmatch w t v) as [bs|]; [destruct BT as [-> BT]|rewrite BT; apply meets_refl]. exact (good_holds _ _ _ _ _ _ _ _ _ _ BT HC VE).
  Qed.

  (** ** Nodes *)
  Definition accepted (b : list writable) : Prop := forall e, In (WExpr e) b -> forall m, exists r wr, visit_expr inp m e = Ok (r, wr).
  Lemma accepted_nil : accepted [].
  Proof. intros e []. Qed.
  Lemma flushed_accepted m b c : flushed inp m b c -> accepted b.
  Proof.
    intros (named & z & parts & named' & E & _) e He m'.
    assert (HV : exists r wr, visit_expr inp m e = Ok (r, wr)).
    { unfold prepare_format in E. destruct b as [|i b0]; [destruct He|]. destruct (all_lits (i :: b0)) eqn:L.
      - unfold all_lits in L. rewrite forallb_forall in L. specialize (L _ He). discriminate L.
      - apply rbind_Ok in E as (p' & EF & _). exact (format_accepts inp m _ _ p' EF e He). }
    destruct HV as (r & wr & HV). destruct (visit_any inp m m' e r wr HV) as [r' HV']. eauto.
  Qed.
  Lemma accepted_app b i : accepted (b ++ [i]) -> accepted b.
  Proof. intros H e He. apply H. apply in_or_app. left. exact He. Qed.

  Definition PN (m : chain) (b : list writable) (n : tnode) (c : list stmt) (m' : chain) (b' : list writable) : Prop :=
    grows m m' /\ (accepted b' -> accepted b /\ forall A1 A2 F lp G G', scoped_node A1 A2 F G n = Some G' -> forall te re k k', Good A1 A2 F G m te re lp ->
      (forall te' re', Good A1 A2 F G' m' te' re' lp -> meets (k te') (k' m' re')) -> meets (rmean lp n te k) (tmean n m re k')).
  Definition PL (m : chain) (b : list writable) (l : list tnode) (c : list stmt) (m' : chain) (b' : list writable) : Prop :=
    grows m m' /\ (accepted b' -> accepted b /\ forall A1 A2 F lp G G', scoped_list (scoped_node A1 A2 F) G l = Some G' -> forall te re k k', Good A1 A2 F G m te re lp ->
      (forall te' re', Good A1 A2 F G' m' te' re' lp -> meets (k te') (k' m' re')) -> meets (rl lp l te k) (tl l m re k')).
  Definition PB (m : chain) (bs : list (option cond_test * list tnode)) (rbs : list (Gen.rtest * list stmt)) (m' : chain) : Prop :=
    m' = m /\ forall A1 A2 F lp G, scoped_branches (scoped_node A1 A2) F A1 A2 G bs = true -> forall te re, Good A1 A2 F G m te re lp ->
      meets (rbranches w T x inp (rmean lp) te lp bs) (tbranches w T x inp tmean m re bs).
  Definition PA (m : chain) (bs : list (target * list tnode)) (rbs : list (target * list stmt)) (m' : chain) : Prop :=
    m' = m /\ forall A1 A2 F lp G, scoped_arms (scoped_node A1 A2) F A1 A2 G bs = true -> forall te re v, Good A1 A2 F G m te re lp ->
      meets (rarms w T (rmean lp) te v bs) (tarms w T tmean m re v bs).

  Lemma body_meets m l c m' b' c' A1 A2 F G lp te re : PL m [] l c m' b' -> flushed inp m' b' c' -> closed (scoped_node A1 A2 F) G l = true ->
    Good A1 A2 F G m te re lp -> meets (rblock w T (rmean lp) l te) (tblock w T tmean l m re).
  Proof.
    intros (_ & H) Fl HS R. unfold closed in HS. destruct (scoped_list _ G l) as [G'|] eqn:E; [|discriminate HS].
    destruct (H (flushed_accepted _ _ _ Fl)) as [_ H']. apply (H' A1 A2 F lp G G' E te re (fun _ => stop) (fun _ _ => stop) R). intros. apply meets_refl.
  Qed.
  (** Something after which all variables are as before *)
  Lemma same_scope m b n c : flushed inp m b c \/ flushed inp (ch_push m) b c ->
    (forall A1 A2 F lp G G', scoped_node A1 A2 F G n = Some G' -> G' = G /\ forall te re k k', Good A1 A2 F G m te re lp ->
      meets (k te) (k' m re) -> meets (rmean lp n te k) (tmean n m re k')) -> forall c', PN m b n c' m [].
  Proof.
    intros Fl H c'. split; [apply grows_refl|]. intros _. split; [destruct Fl as [Fl|Fl]; eapply flushed_accepted; exact Fl|].
    intros A1 A2 F lp G G' E te re k k' R HK. destruct (H _ _ _ lp _ _ E) as [-> H']. apply H'; [exact R|]. apply HK. exact R.
  Qed.

  Lemma nil_meets m b : PL m b [] [] m b.
  Proof. split; [apply grows_refl|]. intros HA. split; [exact HA|]. intros A1 A2 F lp G G' E te re k k' R HK. injection E as <-. exact (HK te re R). Qed.
  Lemma cons_meets m b t c m1 b1 ts c' m2 b2 : PN m b t c m1 b1 -> PL m1 b1 ts c' m2 b2 -> PL m b (t :: ts) (c ++ c') m2 b2.
  Proof.
    intros (G1 & H1) (G2 & H2). split; [eapply grows_trans; eassumption|]. intros HA. destruct (H2 HA) as [HA1 H2']. destruct (H1 HA1) as [HA0 H1']. split; [exact HA0|].
    intros A1 A2 F lp G G' E te re k k' R HK. cbn [scoped_list] in E. destruct (scoped_node A1 A2 F G t) as [Gm|] eqn:E1; [|discriminate E]. cbn [obind] in E.
    cbn [rlist tlist]. apply (H1' A1 A2 F lp G Gm E1 te re (fun en' => rl lp ts en' k) (fun m' en' => tl ts m' en' k') R). intros te' re' R'.
    exact (H2' A1 A2 F lp Gm G' E te' re' k k' R' HK).
  Qed.
  Lemma text_meets m b s : PN m b (TText s) [] m (b ++ [WLit s]).
  Proof.
    split; [apply grows_refl|]. intros HA. split; [exact (accepted_app _ _ HA)|]. intros A1 A2 F lp G G' E te re k k' R HK. injection E as <-. cbn [EffRef.rmean EffSem.tmean].
    apply meets_write; [apply meets_refl|exact (HK te re R)].
  Qed.
  Lemma expr_meets m b e : PN m b (TExpr e) [] m (b ++ [WExpr e]).
  Proof.
    split; [apply grows_refl|]. intros HA. split; [exact (accepted_app _ _ HA)|]. intros A1 A2 F lp G G' E te re k k' R HK. cbn [scoped_node] in E.
    destruct (scoped_expr F A2 G e) eqn:HE; [|discriminate E]. injection E as <-. cbn [EffRef.rmean EffSem.tmean]. apply meets_write; [|exact (HK te re R)].
    destruct (HA e ltac:(apply in_or_app; right; left; reflexivity) m) as (r & wr & HV). unfold xshow. rewrite HV. cbn [code_or].
    pose proof (good_expr A1 A2 F G m te re lp e R HE r wr HV) as M. pose proof (visit_wrap inp m e r wr HV) as ->. unfold RefSem.shown.
    destruct (opts_out e); [apply meets_bnd; [exact M|intros v; apply meets_refl]|]. cbn [xeval].
    intros t Hn. specialize (M t). unfold EffSem.bnd, EffSem.opt, ebnd, pure in *. destruct (xteval te lp e t) as [[v| |] t']; cbn in *; [rewrite M by discriminate; reflexivity|rewrite M by discriminate; reflexivity|congruence].
  Qed.
  Lemma let_meets m b t e r (sh : bool) c b1 p m' : visit_expr_root inp m e = Ok r -> is_shadowing_variable m t = Ok sh ->
    (if sh then flushed inp m b c /\ b1 = [] else c = [] /\ b1 = b) -> visit_target m true t = Ok (p, m') ->
    PN m b (TLet t (Some e)) (c ++ [let_stmt m sh t p r]) m' b1.
  Proof.
    intros VE SH FB VT. split; [exact (proj1 (grows_target _ _ _ _ _ VT))|]. intros HA.
    split; [destruct sh; destruct FB as [Fl ->]; [exact (flushed_accepted _ _ _ Fl)|exact HA]|].
    intros A1 A2 F lp G G' E te re k k' R HK. cbn [scoped_node] in E. destruct (_ && _ && _) eqn:HC; [|discriminate E]. injection E as <-.
    apply andb_prop in HC as [HC H3]. apply andb_prop in HC as [H1 H2]. apply andb_prop in H3 as [H3 H4]. cbn [EffRef.rmean EffSem.tmean]. rewrite VE. cbn [code_or]. rewrite VT. cbn [code_or].
    assert (HW : waiting m t = false).
    { destruct R as [R Q S]. destruct t as [y| | | | | | | |]; try reflexivity. cbn [waiting]. destruct (ch_get m y) as [meta0|] eqn:E0; [|reflexivity].
      destruct (bindable_inv _ _ _ H1) as [_ Hb]. cbn [pattern_names] in Hb. destruct (str_eqb y (lit "_")) eqn:Eu.
      { apply str_eqb_eq in Eu. subst y. rewrite (key_reserved w A1 A2 F G m te re [] lp R) in E0; [discriminate E0|do 2 right; left; reflexivity]. }
      destruct (Hb y (or_introl eq_refl)) as (Hg & HA1 & HA2). destruct (ch_get m (norm y)) as [meta|] eqn:E1.
      - pose proof (r_some _ _ _ _ _ _ _ _ _ _ R y meta Hg E1) as SR. unfold slot_rel in SR. specialize (S y). unfold unset in S.
        destruct (l_refs meta), (get y G) as [[]|]; try tauto; try discriminate S. destruct SR as ([SR|SR] & _); [rewrite SR; reflexivity|contradiction].
      - exfalso. destruct (r_keys _ _ _ _ _ _ _ _ _ _ R y) as [(z & Hz & NZ)|(id & NZ)]; [congruence| |].
        + destruct (norm_cases z) as [NC|[_ NC]]; [rewrite NC in NZ; subst z; congruence|].
          rewrite NC in NZ. subst y. discriminate Hg.
        + subst y. pose proof (fb_name_is id) as FB1. unfold good in Hg. apply andb_prop in Hg as [Hg _]. apply andb_prop in Hg as [_ Hg]. unfold is_fb in FB1. rewrite FB1 in Hg. discriminate Hg. }
    rewrite HW. apply meets_bnd; [eapply good_root; eassumption|]. intros v.
    pose proof (new_rel w A1 A2 F G m m' te re [] lp t p v (g_rel _ _ _ _ _ _ _ _ R) H1 H2 VT) as NR.
    destruct (pmatch w t v) as [bs|]; [destruct NR as (-> & NR & _)|rewrite NR; apply meets_refl].
    apply (HK (bind_vals w bs te) (bind_vals w (map norm_fst bs) re)). constructor; [exact NR|exact (quiet_target _ _ _ _ _ VT (g_quiet _ _ _ _ _ _ _ _ R))|apply settled_bind, (g_set _ _ _ _ _ _ _ _ R)].
  Qed.
  Lemma if_meets m b c bs rbs m' : flushed inp m b c -> PB m bs rbs m' -> PN m b (TIf bs) (c ++ [SIf rbs]) m' [].
  Proof.
    intros Fl (-> & H). eapply same_scope; [left; exact Fl|]. intros A1 A2 F lp G G' E. cbn [scoped_node] in E. destruct (_ && _) eqn:HC; [|discriminate E]. injection E as <-.
    apply andb_prop in HC as [_ HC]. split; [reflexivity|]. intros te re k k' R HK. cbn [EffRef.rmean EffSem.tmean]. apply meets_seq; [|exact HK]. exact (H A1 A2 F lp G HC te re R).
  Qed.
  Lemma match_meets m b c e r arms rarms m' : flushed inp m b c -> visit_expr_root inp m e = Ok r -> PA m arms rarms m' -> PN m b (TMatch e arms) (c ++ [SMatch r rarms]) m' [].
  Proof.
    intros Fl VE (-> & H). eapply same_scope; [left; exact Fl|]. intros A1 A2 F lp G G' E. cbn [scoped_node] in E. destruct (_ && _ && _) eqn:HC; [|discriminate E]. injection E as <-.
    apply andb_prop in HC as [HC HC2]. apply andb_prop in HC as [HC1 _]. split; [reflexivity|]. intros te re k k' R HK. cbn [EffRef.rmean EffSem.tmean]. rewrite VE. cbn [code_or].
    apply meets_bnd; [eapply good_root; eassumption|]. intros v. apply meets_seq; [|exact HK]. exact (H A1 A2 F lp G HC2 te re v R).
  Qed.
  Lemma branches_cons_meets m t rt m1 body c1 m2 b2 c2 m3 bs rbs m4 : test_code inp (ch_push m) t rt m1 -> PL m1 [] body c1 m2 b2 ->
    flushed inp m2 b2 c2 -> ch_pop m2 = Ok m3 -> PB m3 bs rbs m4 -> PB m ((t, body) :: bs) ((rt, c1 ++ c2) :: rbs) m4.
  Proof.
    intros TC HL Fl Pop (-> & HB). destruct (test_visit inp _ _ _ _ TC) as (VT & G0 & _ & _). assert (m3 = m) as ->.
    { eapply pop_grows; [|exact Pop]. eapply grows_trans; [exact G0|exact (proj1 HL)]. }
    split; [reflexivity|]. intros A1 A2 F lp G HS te re R. cbn [scoped_branches] in HS. apply andb_prop in HS as [HS1 HS2]. cbn [rbranches tbranches]. rewrite VT. cbn [code_or].
    destruct (scoped_test F A1 A2 G t) as [[F' G']|] eqn:ST; [|discriminate HS1].
    eapply test_meets; [apply Good_push; exact R|exact TC|exact ST| |exact (HB A1 A2 F lp G HS2 te re R)].
    intros te' re' R'. eapply body_meets; eassumption.
  Qed.
  Lemma arms_cons_meets m t p m1 body c1 m2 b2 c2 m3 arms rarms m4 : visit_target (ch_push m) true t = Ok (p, m1) -> PL m1 [] body c1 m2 b2 ->
    flushed inp m2 b2 c2 -> ch_pop m2 = Ok m3 -> PA m3 arms rarms m4 -> PA m ((t, body) :: arms) ((p, c1 ++ c2) :: rarms) m4.
  Proof.
    intros VT HL Fl Pop (-> & HB). assert (m3 = m) as ->.
    { eapply pop_grows; [|exact Pop]. eapply grows_trans; [exact (proj1 (grows_target _ _ _ _ _ VT))|exact (proj1 HL)]. }
    split; [reflexivity|]. intros A1 A2 F lp G HS te re v R. cbn [scoped_arms] in HS. apply andb_prop in HS as [HS HS2]. apply andb_prop in HS as [HS0 HS1].
    cbn [EffRef.rarms tarms]. rewrite VT. cbn [code_or]. pose proof (good_bind A1 A2 F G (ch_push m) m1 te re lp t p v (Good_push _ _ _ _ _ _ _ _ R) HS0 VT) as BT.
    destruct (pmatch w t v) as [bs|]; [destruct BT as [-> BT]|rewrite BT; exact (HB A1 A2 F lp G HS2 te re v R)]. eapply body_meets; eassumption.
  Qed.
  Lemma inside_nil A1 A2 F G l : closed (scoped_node A1 A2 (minus F [])) (bind_vars false [] G) l = closed (scoped_node A1 A2 F) G l.
  Proof. rewrite minus_id by (intros y []). reflexivity. Qed.
  Lemma for_meets m b c it r how t cnd flt m1 p m2 body c1 m3 b3 c1' m4 els c2 m5 b5 c2' m6 tail c3 m7 b7 c3' m8 has_else :
    visit_expr_root inp (ch_push m) it = Ok r -> flushed inp (ch_push m) b c ->
    match cnd with
    | None => flt = None /\ m1 = ch_push m
    | Some e => exists p0 mc e', visit_target (ch_push (ch_push m)) true t = Ok (p0, mc) /\ visit_expr_root inp mc e = Ok e' /\
                                 ch_pop mc = Ok m1 /\ flt = Some (p0, e')
    end ->
    visit_target (ch_push m1) true t = Ok (p, m2) -> PL m2 [] body c1 m3 b3 -> flushed inp m3 b3 c1' -> ch_pop m3 = Ok m4 ->
    PL (ch_push m4) [] els c2 m5 b5 -> flushed inp m5 b5 c2' -> ch_pop m5 = Ok m6 ->
    PL m6 [] tail c3 m7 b7 -> flushed inp m7 b7 c3' -> ch_pop m7 = Ok m8 -> (has_else = false -> els = [] /\ c2 ++ c2' = []) ->
    PN m b (TFor t it cnd body els tail) (c ++ [SLoop has_else r how flt p (c1 ++ c1') (c2 ++ c2') (c3 ++ c3')]) m8 [].
  Proof.
    intros VI Fl HF VT HB Fb P3 HE Fe P5 HT Ft P7 EL. assert (m1 = ch_push m /\ EffSem.visit_filter inp (ch_push (ch_push m)) t cnd = Ok flt) as [-> VF].
    { destruct cnd as [e|]; cbn [EffSem.visit_filter].
      - destruct HF as (p0 & mc & e' & E1 & E2 & E3 & ->). split; [|rewrite E1; cbn [rbind]; rewrite E2; reflexivity].
        eapply pop_grows; [exact (proj1 (grows_target _ _ _ _ _ E1))|exact E3].
      - destruct HF as [-> ->]. split; reflexivity. }
    assert (m4 = ch_push m) as -> by (eapply pop_grows; [eapply grows_trans; [exact (proj1 (grows_target _ _ _ _ _ VT))|exact (proj1 HB)]|exact P3]).
    assert (m6 = ch_push m) as -> by (eapply pop_grows; [exact (proj1 HE)|exact P5]).
    assert (m8 = m) as -> by (eapply pop_grows; [exact (proj1 HT)|exact P7]).
    eapply same_scope; [right; exact Fl|]. intros A1 A2 F lp G G' E. cbn [scoped_node] in E.
    match type of E with (if ?c then _ else _) = _ => destruct c eqn:HC; [|discriminate E] end. injection E as <-. split; [reflexivity|].
    apply andb_prop in HC as [HC C7]. apply andb_prop in HC as [HC C6]. apply andb_prop in HC as [HC C5]. apply andb_prop in HC as [HC C4]. apply andb_prop in HC as [HC C3]. apply andb_prop in HC as [C1 C2].
    rewrite inside_nil in C6, C7.
    intros te re k k' R HK. cbn [EffRef.rmean EffSem.tmean]. rewrite VI. cbn [code_or]. rewrite VF. cbn [code_or]. rewrite VT. cbn [code_or].
    pose proof (Good_push _ _ _ _ _ _ _ _ R) as R1. pose proof (Good_push _ _ _ _ _ _ _ _ R1) as R2.
    apply meets_bnd; [exact (good_root _ _ _ _ _ _ _ _ _ _ R1 C1 VI)|]. intros v. apply meets_bnd; [apply meets_refl|]. intros items. apply meets_bnd.
    - apply meets_loop; [eapply keep_meets; [exact R1|exact C2|exact C4|exact HF]|]. intros i f la u.
      pose proof (good_bind A1 A2 F G _ m2 te re lp t p u R2 C2 VT) as BT. destruct (pmatch w t u) as [bs|]; [destruct BT as [-> BT]|rewrite BT; apply meets_refl].
      eapply body_meets; [exact HB|exact Fb|exact C5|]. destruct BT as [BR BQ BS]. constructor; [|exact BQ|exact BS]. eapply Rel_loop; [|exact BR].
      intros HI. apply mem_str_In in HI. rewrite HI in C3. discriminate C3.
    - intros [s did]. cbn [fst snd]. apply meets_write; [apply meets_refl|]. apply meets_seq; [|apply meets_seq; [|exact HK]].
      + destruct did; [apply meets_refl|]. eapply body_meets; [exact HE|exact Fe|exact C6|exact R2].
      + eapply body_meets; [exact HT|exact Ft|exact C7|exact R1].
  Qed.
  Lemma scoped_texts f ls : (forall G s, f G (TText s) = Some G) -> forall G, scoped_list f G (texts ls) = Some G.
  Proof. intros H. induction ls as [|s ls IH]; intros G; [reflexivity|]. cbn [texts map scoped_list]. rewrite H. cbn [obind]. apply IH. Qed.
  Lemma rmean_ext lp n en k k' : (forall en, same T (k en) (k' en)) -> same T (rmean lp n en k) (rmean lp n en k').
  Proof.
    intros H. destruct n; cbn [EffRef.rmean]; try apply same_refl.
    - apply same_write; [apply same_refl|apply H].
    - apply same_write; [apply same_refl|apply H].
    - destruct val as [e|]; [|apply same_refl]. apply same_bnd; [apply same_refl|]. intros v. apply same_bnd; [apply same_refl|]. intros bs. apply H.
    - apply same_seq; [apply same_refl|apply H].
    - apply same_bnd; [apply same_refl|]. intros v. apply same_seq; [apply same_refl|apply H].
    - apply same_bnd; [apply same_refl|]. intros v. apply same_bnd; [apply same_refl|]. intros items.
      apply same_bnd; [apply same_refl|]. intros r. apply same_write; [apply same_refl|]. apply same_seq; [apply same_refl|]. apply same_seq; [apply same_refl|apply H].
    - apply same_seq; [apply same_refl|apply H].
    - apply same_seq; [apply same_refl|apply H].
    - apply same_bnd; [apply same_refl|]. intros v. apply same_seq; [apply same_refl|apply H].
  Qed.
  Lemma rlist_app lp l l' : forall te k, same T (rl lp (l ++ l') te k) (rl lp l te (fun te' => rl lp l' te' k)).
  Proof. induction l as [|n l IH]; intros te k; cbn [app rlist]; [apply same_refl|]. apply rmean_ext. intros te'. apply IH. Qed.
  Lemma meets_same {A} (a a' b b' : eff T A) : same T a' a -> same T b' b -> meets a b -> meets a' b'.
  Proof. intros S1 S2 H t Hn. rewrite S1 in *. rewrite S2. apply H. exact Hn. Qed.
  Lemma texts_meets lp ls : forall te m re, meets (rl lp (texts ls) te (fun _ => stop)) (tl (texts ls) m re (fun _ _ => stop)).
  Proof. induction ls as [|s ls IH]; intros te m re; [apply meets_refl|]. cbn [texts map rlist tlist EffRef.rmean EffSem.tmean]. apply meets_write; [apply meets_refl|apply IH]. Qed.
  Lemma block_meets m b c body ls c1 m1 b1 c2 b2 : flushed inp m b c -> PL ch_empty [] body c1 m1 b1 ->
    (if ch_is_current_empty m1 then c2 = [] /\ b2 = b1 else flushed inp m1 b1 c2 /\ b2 = []) ->
    PN m b (TBlock (body ++ texts ls)) (c ++ c1 ++ c2) m (b2 ++ map WLit ls).
  Proof.
    intros Fl (_ & HB) HE. split; [apply grows_refl|]. intros HA. split; [exact (flushed_accepted _ _ _ Fl)|].
    assert (HA1 : accepted b1).
    { destruct (ch_is_current_empty m1); [destruct HE as [_ ->]|exact (flushed_accepted _ _ _ (proj1 HE))]. intros e He. apply HA. apply in_or_app. left. exact He. }
    destruct (HB HA1) as [_ HB']. intros A1 A2 F lp G G' E te re k k' R HK. cbn [scoped_node] in E. destruct (_ && _) eqn:HC; [|discriminate E]. injection E as <-.
    apply andb_prop in HC as [HC _]. unfold closed in HC. destruct (scoped_list _ _ (body ++ texts ls)) as [G1|] eqn:HS; [|discriminate HC].
    apply scoped_app in HS as [G2 HS]. cbn [EffRef.rmean EffSem.tmean]. apply meets_seq; [|exact (HK te re R)].
    eapply meets_same; [apply rlist_app|apply tlist_app|]. apply (HB' [] [] F lp [] G2 HS [] re (fun te' => rl lp (texts ls) te' (fun _ => stop)) (fun m' en' => tl (texts ls) m' en' (fun _ _ => stop))).
    - constructor; [exact (block_rel w F te re [] lp A1 A2 G m (g_rel _ _ _ _ _ _ _ _ R))|intros y meta r K; discriminate K|intros y; reflexivity].
    - intros te' re' _. apply texts_meets.
  Qed.
  Lemma include_meets m b c p body c1 m1 b1 c2 : flushed inp m b c -> PL (ch_with_parent m) [] body c1 m1 b1 -> flushed inp m1 b1 c2 ->
    PN m b (TInclude body) (c ++ [SIncludeBytes p] ++ c1 ++ c2) m [].
  Proof.
    intros Fl HB Fb. eapply same_scope; [left; exact Fl|]. intros A1 A2 F lp G G' E. cbn [scoped_node] in E. destruct (_ && _) eqn:HC; [|discriminate E]. injection E as <-.
    apply andb_prop in HC as [HC _]. rewrite inside_nil in HC. split; [reflexivity|]. intros te re k k' R HK. cbn [EffRef.rmean EffSem.tmean]. apply meets_seq; [|exact HK].
    eapply body_meets; [exact HB|exact Fb|exact HC|]. eapply Good_chain; [apply ch_get_parent|exact R].
  Qed.

  (** ** Macros *)
  Lemma place_is te lp e : simple_place e = true -> is T (xteval te lp e) (teval w inp te [] lp Unset e).
  Proof.
    induction e; intros H; try discriminate H; cbn [EffRef.xteval teval simple_place] in *. all: change is_loop with var_loop in *.
    - destruct (str_eqb s (lit "self")); apply is_pure.
    - destruct (var_loop e); [apply is_pure|]. apply is_bnd; [exact (IHe H)|]. intros v. apply is_pure.
  Qed.
  Lemma meets_start {A B C} (a a' : eff T A) (g g' : A -> B) (K K' : B -> eff T C) :
    meets (bnd a (fun v => K (g v))) (bnd a' (fun v => K' (g' v))) -> meets (bnd (bnd a (fun v => ret (g v))) K) (bnd (bnd a' (fun v => ret (g' v))) K').
  Proof. intros H. eapply meets_same; [apply bnd_assoc|apply bnd_assoc|exact H]. Qed.
  Lemma binds_meets {C} A1 A2 F G m0 te re lp A : Good A1 A2 F G m0 te re lp -> incl A1 A -> forall l ms names values, binds inp m0 l ms names values ->
    (forall a, In a l -> scoped_expr F A2 G (snd a) = true /\ (is_copied (snd a) = false -> simple_place (snd a) = true /\
       forall x, In x (fv (snd a)) -> known G x || str_eqb x (lit "loop") = true -> In x A)) ->
    forall K K' : list V -> eff T C, (forall vs us, vals w (ref_ok w A re []) l vs ms names us -> meets (K vs) (K' us)) ->
    meets (bnd (eff_map T (fun a => xteval te lp (snd a)) l) K) (bnd (eff_map T (xeval w T x re []) values) K').
  Proof.
    intros R HA. induction 1 as [|p e r l ms ns vs H1 H2 H3 IH|p e r wr l ms ns vs H1 H2 H3 H4 H5 IH]; intros HE K K' HK.
    - apply (HK [] []). constructor.
    - destruct (HE (p, e) (or_introl eq_refl)) as [E1 _]. cbn [snd] in E1. specialize (IH (fun a Ha => HE a (or_intror Ha))). cbn [eff_map snd].
      apply meets_bnd2; [eapply good_root; eassumption|]. intros v. apply meets_start. apply (IH (fun bs => K (v :: bs)) (fun bs => K' (v :: bs))).
      intros vs' us HV. apply HK. constructor; assumption.
    - destruct (HE (p, e) (or_introl eq_refl)) as [E1 E2]. cbn [snd] in E1, E2. specialize (E2 H1) as [E2 E3]. specialize (IH (fun a Ha => HE a (or_intror Ha))). cbn [eff_map snd].
      pose proof (rel_expr w inp A1 A2 F G m0 te re [] lp (g_rel _ _ _ _ _ _ _ _ R) wok e Unset E1 r wr H2) as ER. pose proof (place_value w inp te [] lp e E2) as NF.
      pose proof (place_is te lp e E2) as PI. destruct (teval w inp te [] lp Unset e) as [v| |].
      + specialize (ER ltac:(discriminate)). intros t Hn.
        assert (EQ : bnd (ebnd T (xteval te lp e) (fun b => ebnd T (eff_map T (fun a => xteval te lp (snd a)) l) (fun bs => ret (b :: bs)))) K t =
                     bnd (eff_map T (fun a => xteval te lp (snd a)) l) (fun bs => K (v :: bs)) t).
        { unfold EffSem.bnd, ebnd. rewrite PI. destruct (eff_map T _ l t) as [[bs| |] t']; reflexivity. }
        unfold EffSem.ret in EQ. unfold EffSem.bnd in *. rewrite EQ in *. apply (IH (fun bs => K (v :: bs)) K'); [|exact Hn]. intros vs' us HV. apply HK. constructor; [|exact HV].
        split; [exact H3|]. split; [exact H4|]. split; [|exact ER].
        destruct (scoped_inv w A1 A2 F G m0 te re [] lp (g_rel _ _ _ _ _ _ _ _ R) e E1) as (S1 & S2 & _).
        intros n Hnn. pattern n. eapply (place_names w inp A1 A2 F G m0 te re [] lp e _ (g_rel _ _ _ _ _ _ _ _ R) S1 E2); [left; reflexivity| |exact S2| |exact H2|exact Hnn].
        * intros a Ha. right. exists a. auto.
        * intros y Hx Hk. right. exists y. auto.
      + congruence.
      + intros t Hn. exfalso. apply Hn. unfold EffSem.bnd, ebnd. rewrite PI. reflexivity.
  Qed.
  Lemma macro_meets m b c l body m1 names values c1 m2 b2 c2 m3 : flushed inp (ch_push m) b c -> bind_pairs inp (ch_push m) l = Ok (m1, names, values) ->
    PL m1 [] body c1 m2 b2 -> flushed inp m2 b2 c2 -> ch_pop m2 = Ok m3 -> PN m b (TMacro l body) (c ++ [SBlock (bind_code names values ++ c1 ++ c2)]) m3 [].
  Proof.
    intros Fl EB HB Fb Pop. assert (m3 = m) as ->.
    { eapply pop_grows; [|exact Pop]. eapply grows_trans; [exact (bind_grows inp l _ _ _ _ EB)|exact (proj1 HB)]. }
    eapply same_scope; [right; exact Fl|]. intros A1 A2 F lp G G' E. cbn [scoped_node] in E. destruct (_ && _) eqn:HC; [|discriminate E]. injection E as <-.
    apply andb_prop in HC as [HA HC]. split; [reflexivity|]. intros te re k k' R HK. cbn [EffRef.rmean EffSem.tmean]. rewrite EB. cbn [code_or].
    pose proof (Good_push _ _ _ _ _ _ _ _ R) as R1. pose proof (g_rel _ _ _ _ _ _ _ _ R1) as RR. destruct (args_inv _ _ _ _ _ HA) as [NC HI].
    destruct (SimScope.bind_ok w inp A1 A2 F G (ch_push m) te re [] lp RR l (ch_push m) m1 names values NC) as (ms & B1 & B2 & B3 & _); [| | | |exact EB|].
    - apply Forall_forall. intros [p e] Hi. destruct (HI p e Hi) as (H1 & H2 & H3 & _). destruct (scoped_inv w A1 A2 F G _ te re [] lp RR e H3) as (S1 & S2 & _).
      split; [exact H1|]. split; [exact H2|]. split; [exact S1|]. intros y Hy. destruct (str_eqb y (lit "loop")) eqn:E; [left; apply str_eqb_eq; exact E|right].
      apply S2; [exact Hy|]. apply str_eqb_neq. exact E.
    - intros k0 Hk. eapply key_dot; eassumption.
    - reflexivity.
    - reflexivity.
    - eapply (binds_meets A1 A2 F G (ch_push m) te re lp (shared_names G l ++ A1) R1 (incl_appr _ (incl_refl _)) l ms names values B1).
      + intros [p e] Hi. destruct (HI p e Hi) as (_ & _ & H3 & _ & H5). split; [exact H3|]. intros Hc. split; [auto|]. intros y Hx Hk. apply in_or_app. left. eapply shared_in; eassumption.
      + intros vs us HV. apply meets_seq; [|exact HK]. eapply body_meets; [exact HB|exact Fb|exact HC|]. constructor.
        * exact (macro_rel w A1 A2 F G _ m1 te re [] lp l ms vs names us RR HA B3 B2 HV).
        * intros y meta r Ey Er. rewrite B3 in Ey. destruct (get y ms) as [meta'|] eqn:Eg; [|exact (g_quiet _ _ _ _ _ _ _ _ R1 y meta r Ey Er)]. injection Ey as ->.
          clear - B1 Eg Er R1 HI. revert Eg. assert (HI' : forall p e, In (p, e) l -> is_copied e = false -> simple_place e = true) by (intros p e Hp; apply (HI p e Hp)). clear HI.
          induction B1 as [|p e r0 l ms ns vs H1 H2 H3 IH|p e r0 wr l ms ns vs H1 H2 H3 H4 H5 IH]; cbn [get]; [discriminate| |]; (destruct (str_eqb y p); [|apply IH; intros p' e' Hp; apply HI' with p'; right; exact Hp]).
          -- intros [= <-]. discriminate Er.
          -- intros [= <-]. injection Er as <-. destruct (place_quiet e (HI' p e (or_introl eq_refl) H1)) as [P1 P2]. exact (visit_quiet inp _ (g_quiet _ _ _ _ _ _ _ _ R1) e P1 P2 r0 wr H2).
        * apply settled_bind, (g_set _ _ _ _ _ _ _ _ R).
  Qed.
  Lemma jump_meets m b c n s : flushed inp m b c -> n = TBreak \/ n = TContinue -> PN m b n (c ++ [s]) m [].
  Proof.
    intros Fl HJ. eapply same_scope; [left; exact Fl|]. intros A1 A2 F lp G G' E. destruct HJ as [-> | ->]; injection E as <-; (split; [reflexivity|]); intros; apply meets_refl.
  Qed.

  Theorem code_meaning m b ts c m' b' : cg_list inp m b ts c m' b' -> PL m b ts c m' b'.
  Proof.
    intros H.
    apply (cg_ind inp (fun m b ts c m' b' _ => PL m b ts c m' b') (fun m b t c m' b' _ => PN m b t c m' b')
      (fun m bs rbs m' _ => PB m bs rbs m') (fun m bs rbs m' _ => PA m bs rbs m')); intros; try exact H.
    - apply nil_meets.
    - eapply cons_meets; eassumption.
    - apply text_meets.
    - apply expr_meets.
    - split; [eapply grows_target; eassumption|]. intros _. split; [eapply flushed_accepted; eassumption|]. intros. apply meets_none.
    - eapply let_meets; eassumption.
    - eapply if_meets; eassumption.
    - eapply match_meets; eassumption.
    - eapply for_meets; eassumption.
    - eapply block_meets; eassumption.
    - eapply include_meets; eassumption.
    - eapply macro_meets; eassumption.
    - split; [|].
      + match goal with K : PL _ _ _ _ _ _ |- _ => destruct K as [K _] end. eapply grows_trans; [eassumption|]. eapply grows_insert; eassumption.
      + intros HA. split; [exact (accepted_app _ _ HA)|]. intros. apply meets_none.
    - eapply jump_meets; [eassumption|auto].
    - eapply jump_meets; [eassumption|auto].
    - split; [reflexivity|]. intros. apply meets_refl.
    - eapply branches_cons_meets; eassumption.
    - split; [reflexivity|]. intros. apply meets_refl.
    - eapply arms_cons_meets; eassumption.
  Qed.
  Theorem render_meaning F ts c1 c2 m' b' : scoped F ts = true -> cg_list inp ch_empty [] ts c1 m' b' -> flushed inp m' b' c2 ->
    meets (rrender w T x inp ts) (xrender w T x inp ts).
  Proof.
    intros HS HC Fl. unfold scoped in HS. apply andb_prop in HS as [HF HS]. apply meets_bnd; [|intros r; apply meets_refl].
    eapply body_meets; [apply code_meaning; exact HC|exact Fl|exact HS|].
    constructor; [exact (start_rel w F HF)|intros y meta r K; discriminate K|intros y; reflexivity].
  Qed.
End Meaning.

(** The effects of the template, by RefSem's reading of it, are those of the code. *)
Theorem build_meaning inp find fuel templates code z tns F w T (x : effects w T) : world_ok w ->
  build_template inp find fuel templates = GOk (code, z) -> f_block inp = None -> assemble inp find fuel templates = GOk tns ->
  scoped F tns = true -> in_order tns = true -> meets T (rrender w T x inp tns) (xrender w T x inp tns).
Proof.
  intros wok EB HB EA HS HO. unfold build_template, assemble in *. destruct (build_contexts find templates) as [contexts| | |]; try discriminate EB. cbn [gbind] in *.
  destruct (get (f_path inp) contexts) as [ctx|]; [|discriminate EB]. rewrite HB in EB.
  assert (EH : exists her, (match c_blocks ctx, c_extends ctx with [], None => GOk None | _, _ => let* h := heritage_new fuel contexts ctx in GOk (Some h) end) = GOk her /\
    impl_template inp contexts find fuel her ctx = GOk (code, z)).
  { apply gbind_inv in EB as (her & E1 & E2). exists her. split; assumption. }
  destruct EH as (her & EH & EI). rewrite EH in EA. cbn [gbind] in EA. unfold impl_template in EI. cbv zeta in EA, EI.
  set (root := match her with Some h => h_root h | None => ctx end) in *.
  apply gbind_inv in EI as ([[code' z'] st'] & E1 & EI).
  apply gbind_inv in EA as ([t wt] & E2 & EA). injection EA as <-.
  assert (AT : At (initial inp 2) ch_empty ws_init None []) by (constructor; cbn; rewrite ?HB; reflexivity).
  pose proof (expand_all inp contexts find fuel her root (c_nodes root) LTop _ _ _ _ _ _ _ _ AT E1) as HJ. cbn [top_level] in HJ. rewrite E2 in HJ.
  destruct HJ as [(y & Ey & c1 & c2 & m' & b' & -> & HC & Fl & _)|Bad].
  - injection Ey as <-. cbn [fst] in HC. eapply render_meaning; eassumption.
  - exfalso. specialize (Bad _ eq_refl). unfold badl in Bad. cbn [fst] in Bad.
    rewrite (plain_fresh t true) in Bad; [discriminate Bad| |exact HO]. apply Forall_forall. intros n _. apply ordered_plain.
Qed.
