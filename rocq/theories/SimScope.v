(** * The cases of the simulation: blocks, includes, macros and filter blocks. *)
From Coq Require Import ZArith ZifyBool ZifyNat ZifyN.
From Verif Require Import Base Ws Ast Ident IdentFacts GenExpr Heritage Gen Sem RefSem RexprFacts FlushFacts Scoped SimExpr SimFacts GenSteps SimRel SimBuf SimNode SimCtl.
Local Open Scope N_scope.

Section Scope.
  Variables (w : world) (inp : ginput).
  Hypothesis wok : world_ok w.
  Notation lookup := (lookup w).
  Notation Rel := (Rel w).
  Notation PInv := (PInv w inp).
  Notation mono := (mono w).
  Notation xlist := (exec_list w (exec w)).
  Notation mlist lp := (mean_list w (mean w inp lp)).
  Notation Sim := (Sim w inp).
  Notation Body := (Body w).
  Notation PList := (PList w inp).
  Notation PNode := (PNode w inp).

  Lemma tops_cons t ts : tops (t :: ts) = top_names t ++ tops ts.
  Proof. reflexivity. Qed.
  Lemma tops_app a b : tops (a ++ b) = tops a ++ tops b.
  Proof. unfold tops. rewrite map_app, concat_app. reflexivity. Qed.
  Lemma tops_texts ls : tops (texts ls) = [].
  Proof. induction ls; [reflexivity|exact IHls]. Qed.
  Lemma top_block b : top_names (TBlock b) = tops b.
  Proof. cbn [top_names]. induction b as [|n b IH]; [reflexivity|]. rewrite tops_cons, <- IH. reflexivity. Qed.
  Lemma top_include b : top_names (TInclude b) = tops b.
  Proof. exact (top_block b). Qed.
  Lemma scoped_app f a b : forall G G', scoped_list f G (a ++ b) = Some G' -> exists G1, scoped_list f G a = Some G1.
  Proof.
    induction a as [|n a IH]; intros G G' H; [exists G; reflexivity|]. cbn [app scoped_list] in *. destruct (f G n) as [G1|]; [|discriminate H]. cbn [obind] in *. eauto.
  Qed.
  Lemma mean_texts lp ls : forall te st, mlist lp (texts ls) te st = Done (Some (concat ls), te, st, Next).
  Proof.
    induction ls as [|s ls IH]; intros te st; [reflexivity|]. cbn [texts map mean_list mean obnd]. fold (texts ls). rewrite IH. reflexivity.
  Qed.
  Lemma scope_texts lp body ls te te0 st : mean_scope w (mean w inp lp) (body ++ texts ls) te te0 st =
    let^ (o, _, st, fl) := mlist lp body te0 st in Done (match fl with Next => tapp o (Some (concat ls)) | _ => o end, te, st, fl).
  Proof.
    unfold mean_scope. rewrite mean_app. destruct (mean_list w (mean w inp lp) body te0 st) as [[[[o te1] st1] fl]| |]; cbn [obnd]; try reflexivity.
    destruct fl; cbn [obnd]; try reflexivity. rewrite mean_texts. reflexivity.
  Qed.
  Lemma outer_rel A1 A2 F G m te re re' st st' lp tps : Rel A1 A2 F G m te re st lp -> ext w tps re re' -> mono st st' ->
    forallb (fun x => negb (known G x) && negb (mem_str x A1)) tps = true -> Rel A1 A2 F G m te re' st' lp.
  Proof.
    intros R E M HF. rewrite forallb_forall in HF.
    eapply Rel_stable; [exact R|reflexivity|auto| |exact M]. intros n Hn Hl. apply E; [exact Hn|]. intros y Hy Hg ->. specialize (HF y Hy). apply andb_prop in HF as [HF1 HF2].
    destruct Hl as [Hl|[Hl|(a & Ha & Hl)]].
    - exact (norm_item y Hg Hl).
    - destruct (ch_get m (norm y)) as [meta|] eqn:Em; [|congruence]. pose proof (slot_known _ _ _ _ _ _ _ _ _ (r_some _ _ _ _ _ _ _ _ _ _ R y meta Hg Em)) as K.
      unfold known in HF1. destruct (get y G); [discriminate HF1|congruence].
    - destruct (r_shared _ _ _ _ _ _ _ _ _ _ R a Ha) as [->|Hga]; [exact (norm_item y Hg Hl)|]. rewrite rn_good in Hl by exact Hga.
      apply (good_inj y a Hg Hga) in Hl. subst. apply mem_str_In in Ha. rewrite Ha in HF2. discriminate HF2.
  Qed.
  Lemma block_rel F te re st lp A1 A2 G m : Rel A1 A2 F G m te re st lp -> Rel [] [] F [] ch_empty [] re st lp.
  Proof.
    intros R. constructor.
    - intros k Hk. rewrite ch_get_empty in Hk. congruence.
    - intros x _ _. split; reflexivity.
    - intros x meta _ E. rewrite ch_get_empty in E. discriminate E.
    - intros x Hx. cbn in Hx. congruence.
    - reflexivity.
    - intros x Hx. split; [exact (proj1 (r_fields _ _ _ _ _ _ _ _ _ _ R x Hx))|reflexivity].
    - intros a [].
    - exact (r_loop _ _ _ _ _ _ _ _ _ _ R).
  Qed.
  Lemma grows_empty m : grows ch_empty m -> ch_is_current_empty m = true -> m = ch_empty.
  Proof.
    intros [->|(p & s & s' & ss & E & ->)] H; [reflexivity|]. unfold ch_empty in E. injection E as <- <- <-. cbn in H. destruct s'; [reflexivity|discriminate H].
  Qed.
  Lemma block_sim m b c body ls c1 m1 b1 c2 b2 : flushed inp m b c -> PList ch_empty [] body c1 m1 b1 ->
    (if ch_is_current_empty m1 then c2 = [] /\ b2 = b1 else flushed inp m1 b1 c2 /\ b2 = []) ->
    PNode m b (TBlock (body ++ texts ls)) (c ++ c1 ++ c2) m (b2 ++ map WLit ls).
  Proof.
    intros Fl (GR & _ & _ & HL) HB. split; [apply grows_refl|]. split; [apply keeps_refl|]. split; [intros A1 A2 F G G' _; discriminate|].
    intros A1 A2 F lp G G' HS. rewrite top_block, tops_app, tops_texts, app_nil_r. cbn [scoped_node] in HS. destruct (_ && _) eqn:HC; [|discriminate HS]. injection HS as <-.
    apply andb_prop in HC as [HC HT]. rewrite tops_app, tops_texts, app_nil_r in HT. unfold closed in HC. destruct (scoped_list _ _ (body ++ texts ls)) as [G1|] eqn:HS; [|discriminate HC].
    apply scoped_app in HS as [G2 HS]. specialize (HL [] [] F lp [] G2 HS).
    intros te re st p R P. cbn [mean only_output]. rewrite scope_texts, exec_app, (flush_exec w inp A1 F m re st b p c P Fl).
    specialize (HL [] re st (Some []) (block_rel F te re st lp A1 A2 G m R) (PInv_nil w inp [] F ch_empty re st)).
    destruct (mean_list w (mean w inp lp) body [] st) as [[[[o te1] st1] fl]| |]; cbn [obnd].
    2: { destruct p; cbn [obnd]; [rewrite exec_app, HL|]; reflexivity. }
    2: exact I.
    rewrite tapp_nil_l in HL.
    destruct p as [s0|]; cbn [obnd]; [|left; auto]. rewrite exec_app.
    destruct HL as [[X ->]|(s & re1 & X & M & E & _ & D)].
    { rewrite X. cbn [obnd]. left. split; [reflexivity|]. destruct fl; reflexivity. }
    rewrite X. cbn [obnd]. destruct fl.
    2, 3: subst o; right; exists (s0 ++ s), re1; cbn [obnd]; split; [reflexivity|]; split; [exact M|]; split; [exact E|]; split; [discriminate|reflexivity].
    destruct D as (p' & -> & R1 & P1). assert (R' : Rel A1 A2 F G m te re1 st1 lp) by (eapply outer_rel; eassumption).
    assert (T : forall q, tapp (tapp (Some s) p') (Some (concat ls)) = tapp (Some s) q -> tapp (Some s0) (tapp (tapp (Some s) p') (Some (concat ls))) = tapp (Some (s0 ++ s)) q).
    { intros q ->. rewrite <- tapp_assoc. reflexivity. }
    destruct (ch_is_current_empty m1) eqn:Ec.
    - destruct HB as [-> ->]. cbn [Sem.exec_list obnd]. right. exists (s0 ++ s ++ []), re1. split; [reflexivity|]. split; [exact M|]. split; [exact E|]. split; [discriminate|].
      exists (tapp p' (Some (concat ls))). split; [rewrite app_nil_r; apply T; apply tapp_assoc|]. split; [exact R'|]. apply PInv_lits.
      rewrite (grows_empty m1 GR Ec) in *.
      eapply PInv_step; [exact P1|eapply rel_refs; exact R1|exact (r_keys _ _ _ _ _ _ _ _ _ _ R1)|exact (r_keys _ _ _ _ _ _ _ _ _ _ R')| | |apply mono_refl].
      + intros y Hy [Hk|Hk]; [rewrite ch_get_empty in Hk; congruence|]. split; [|right; exact Hk]. apply same_get. rewrite ch_get_empty. symmetry.
        apply (field_free w A1 A2 F G m te re1 st1 lp R' y Hk).
      + intros n Hn. split; [|reflexivity]. destruct Hn as [->|[Hn|(a & [] & _)]]; [left; reflexivity|]. rewrite ch_get_empty in Hn. congruence.
    - destruct HB as [Fl2 ->]. rewrite (flush_exec w inp _ _ _ _ _ _ _ _ P1 Fl2). destruct p' as [s'|]; cbn [obnd].
      + right. exists (s0 ++ s ++ s'), re1. split; [reflexivity|]. split; [exact M|]. split; [exact E|]. split; [discriminate|].
        exists (tapp (Some []) (Some (concat ls))). split; [cbn; rewrite !app_assoc; reflexivity|]. split; [exact R'|]. apply PInv_lits. apply PInv_nil.
      + left. split; reflexivity.
  Qed.
  Lemma include_sim m b c p body c1 m1 b1 c2 : flushed inp m b c -> PList (ch_with_parent m) [] body c1 m1 b1 -> flushed inp m1 b1 c2 ->
    PNode m b (TInclude body) (c ++ [SIncludeBytes p] ++ c1 ++ c2) m [].
  Proof.
    intros Fl L Fl2. split; [apply grows_refl|]. split; [apply keeps_refl|]. split; [intros A1 A2 F G G' _; discriminate|].
    intros A1 A2 F lp G G' HS. rewrite top_include. cbn [scoped_node] in HS. destruct (_ && _) eqn:HC; [|discriminate HS]. injection HS as <-.
    apply andb_prop in HC as [HC HT]. rewrite minus_id in HC by (intros x []). apply Sim_flush; [exact Fl|].
    destruct (PList_body w inp A1 A2 F lp G _ body c1 c2 m1 b1 L Fl2 HC) as [G2 BD].
    intros te re st R. cbn [mean]. unfold mean_scope. rewrite exec_app. cbn [Sem.exec_list exec obnd].
    assert (R1 : Rel A1 A2 F G (ch_with_parent m) te re st lp) by (eapply Rel_chain; [intros; apply ch_get_parent|exact R]). specialize (BD te re st R1).
    destruct (mean_list w (mean w inp lp) body te st) as [[[[o te1] st1] fl]| |]; cbn [obnd]; [|rewrite BD; reflexivity|exact I].
    destruct o as [s|]; [|rewrite BD; reflexivity]. destruct BD as (re1 & X & M & E & _). rewrite X. cbn [obnd app]. exists re1. split; [reflexivity|]. split; [exact M|]. split; [exact E|].
    intros _. eapply outer_rel; eassumption.
  Qed.

  (** ** Macros *)
  Lemma place_value te st lp e : simple_place e = true -> teval w inp te st lp Unset e <> Fails.
  Proof.
    induction e; intros H; try discriminate H; cbn [teval simple_place] in *. all: change is_loop with var_loop in *.
    - destruct (str_eqb s (lit "self")); [discriminate|]. unfold var_value. destruct (Sem.lookup w te s) as [[v|l]|]; cbn [slot_value]; try discriminate.
      destruct (nth_error st l) as [[v|]|]; discriminate.
    - destruct (var_loop e); cbn [orb] in H.
      + unfold loop_value. destruct lp as [[[i f] l]|]; [|discriminate]. repeat (destruct (str_eqb _ _); [discriminate|]). discriminate.
      + specialize (IHe H). destruct (teval w inp te st lp Unset e); cbn [obnd]; congruence.
  Qed.
  (** The generated expression for a place *)
  Lemma place_names A1 A2 F G m te re st lp e (P : str -> Prop) : Rel A1 A2 F G m te re st lp -> plain e = true -> simple_place e = true ->
    P (lit "self") -> (forall a, In a A1 -> P (rn a)) -> (forall x, In x (fv e) -> x <> lit "loop" -> good x = true /\ (In x F \/ get x G <> None)) ->
    (forall x, In x (fv e) -> known G x || str_eqb x (lit "loop") = true -> P (rn x)) ->
    forall r wr, visit_expr inp m e = Ok (r, wr) -> forall n, In n (rnames r) -> P n.
  Proof.
    intros R Hp HP PS PA. induction e; intros Hf PF gr wr V n Hn; try discriminate HP.
    - injection V as <- <-. cbn [fv plain] in *. destruct (str_eqb s (lit "self")) eqn:Es.
      + unfold visit_var in Hn. rewrite Es in Hn. destruct Hn as [<-|[]]. apply str_eqb_eq in Es. subst. exact PS.
      + cbn [orb] in Hp. assert (NL : s <> lit "loop") by (intros ->; discriminate Hp). destruct (Hf s (or_introl eq_refl) NL) as [Hg Hk].
        rewrite visit_var_cases in Hn by exact Hg. destruct (ch_get m (norm s)) as [meta|] eqn:Em; [|destruct Hn as [<-|[]]; exact PS].
        pose proof (r_some _ _ _ _ _ _ _ _ _ _ R s meta Hg Em) as S. pose proof (slot_known _ _ _ _ _ _ _ _ _ S) as K. unfold slot_rel in S.
        destruct (l_refs meta) as [r0|] eqn:El.
        * destruct (get s G) as [[]|]; try tauto. destruct S as (_ & _ & S1 & S2 & _). rewrite S1 in Hn. destruct (S2 n Hn) as [->|(a & Ha & ->)]; [exact PS|exact (PA a Ha)].
        * destruct Hn as [<-|[]]. rewrite <- rn_good by exact Hg. apply PF; [left; reflexivity|]. unfold known. destruct (get s G); [reflexivity|congruence].
    - cbn [visit_expr fv plain simple_place] in *. apply andb_prop in Hp as [_ Hp]. destruct (var_loop e) eqn:EL.
      + assert (PI : P (lit "_loop_item")).
        { destruct e; try discriminate EL. cbn [var_loop] in EL. apply str_eqb_eq in EL. subst. apply (PF (lit "loop")); [left; reflexivity|]. rewrite str_eqb_refl. apply orb_true_r. }
        change (v_plain (loop_attr name) = Ok (gr, wr)) in V. inv_ok V. unfold loop_attr in V.
        repeat match type of V with (if ?c then _ else _) = _ => destruct c end; try discriminate V; injection V as <-; cbn in Hn; destruct Hn as [<-|[]]; exact PI.
      + change (v_plain (let! r0 := v_sub inp m e in Ok (RField r0 (norm name))) = Ok (gr, wr)) in V. inv_ok V.
        match goal with H : v_sub inp m e = Ok _ |- _ => apply v_sub_Ok in H as [wr0 H]; exact (IHe Hp HP Hf PF _ _ H n Hn) end.
  Qed.
  Lemma attr_ref m o x r wr : visit_expr inp m (Attr o x) = Ok (r, wr) -> simple_ref r = true /\ normalize_text r = r /\ In 46 (show r).
  Proof.
    cbn [visit_expr]. destruct (var_loop o); intros V.
    - change (v_plain (loop_attr x) = Ok (r, wr)) in V. inv_ok V. unfold loop_attr in V.
      repeat match type of V with (if ?c then _ else _) = _ => destruct c end; try discriminate V; injection V as <-;
        (split; [reflexivity|]; split; [reflexivity|]; apply mem_chr_In; reflexivity).
    - change (v_plain (let! r0 := v_sub inp m o in Ok (RField r0 (norm x))) = Ok (r, wr)) in V. inv_ok V. split; [reflexivity|]. split; [reflexivity|].
      cbn [show]. apply in_or_app. right. left. reflexivity.
  Qed.
  Lemma var_ref A1 A2 F G m te re st lp x : Rel A1 A2 F G m te re st lp -> good x = true -> ch_resolve_or_self m x = visit_var m x /\
    simple_ref (visit_var m x) = true /\ normalize_text (visit_var m x) = visit_var m x.
  Proof.
    intros R Hg. rewrite visit_var_cases by exact Hg. unfold ch_resolve_or_self, ch_resolve. destruct (ch_get m (norm x)) as [meta|] eqn:Em; [|repeat split].
    destruct (l_refs meta) as [r|] eqn:El; [|split; [reflexivity|]; split; [reflexivity|]; cbn [normalize_text]; rewrite normalize_idem; reflexivity].
    pose proof (r_some _ _ _ _ _ _ _ _ _ _ R x meta Hg Em) as S. unfold slot_rel in S. rewrite El in S. destruct (get x G) as [[]|]; try tauto.
    destruct S as (_ & S1 & S2 & _). rewrite !S2. auto.
  Qed.
  (** What is bound by the arguments, seen from the scope of the call *)
  Inductive binds (m0 : chain) : list (str * expr) -> list (str * lmeta) -> list str -> list rexpr -> Prop :=
  | b_nil : binds m0 [] [] [] []
  | b_copy p e r l ms ns vs : is_copied e = true -> visit_expr_root inp m0 e = Ok r -> binds m0 l ms ns vs -> binds m0 ((p, e) :: l) ((p, m_default) :: ms) (p :: ns) (r :: vs)
  | b_share p e r wr l ms ns vs : is_copied e = false -> visit_expr inp m0 e = Ok (r, wr) -> simple_ref r = true -> normalize_text r = r -> binds m0 l ms ns vs ->
      binds m0 ((p, e) :: l) ((p, m_with_ref r) :: ms) ns vs.
  Definition arg_ok (a : str * expr) : Prop := good (fst a) = true /\ norm (fst a) = fst a /\ plain (snd a) = true /\ forall y, In y (fv (snd a)) -> y = lit "loop" \/ good y = true.
  Lemma clash_inv p e l : no_clash ((p, e) :: l) = true -> no_clash l = true /\ ~ In p (map fst l) /\ forall a, In a l -> ~ In p (fv (snd a)).
  Proof.
    cbn [no_clash]. intros H. apply andb_prop in H as [H1 H2]. split; [exact H2|]. rewrite negb_true_iff in H1.
    assert (K : forall a, In a l -> mem_str p (fv (snd a)) = false /\ str_eqb p (fst a) = false).
    { intros a Ha. apply orb_false_iff. destruct (mem_str p (fv (snd a)) || str_eqb p (fst a)) eqn:E; [|reflexivity].
      rewrite <- H1. symmetry. apply existsb_exists. exists a. auto. }
    split.
    - intros Hi. apply in_map_iff in Hi as (a & <- & Ha). destruct (K a Ha) as [_ K2]. rewrite str_eqb_refl in K2. discriminate K2.
    - intros a Ha Hi. apply mem_str_In in Hi. destruct (K a Ha) as [K1 _]. congruence.
  Qed.
  Lemma bind_ok A1 A2 F G m0 te re st lp : Rel A1 A2 F G m0 te re st lp -> forall l m m1 names values, no_clash l = true -> Forall arg_ok l ->
    (forall k, In 46 k -> ch_get m k = None) -> same_res m m0 (lit "self") -> (forall a y, In a l -> In y (fv (snd a)) -> same_res m m0 y) ->
    bind_pairs inp m l = Ok (m1, names, values) ->
    exists ms, binds m0 l ms names values /\ map fst ms = map fst l /\ (forall k, ch_get m1 k = match get k ms with Some v => Some v | None => ch_get m k end) /\ grows m m1 /\ keeps m m1.
  Proof.
    intros R. induction l as [|[p e] l IH]; intros m m1 names values NC HA HD HSelf HV E.
    - injection E as <- <- <-. exists []. split; [constructor|]. split; [reflexivity|]. split; [reflexivity|]. split; [apply grows_refl|apply keeps_refl].
    - apply clash_inv in NC as (NC & ND & NF). inversion HA as [|? ? (Hg & Hn & Hpl & Hy) HA']; subst. cbn [fst snd] in *.
      assert (VE : visit_expr inp m e = visit_expr inp m0 e).
      { apply visit_ext; [exact HSelf|]. intros y Hyy. exact (HV (p, e) y (or_introl eq_refl) Hyy). }
      assert (Rest : forall meta m' names' values', ch_insert m p meta = Ok m' -> bind_pairs inp m' l = Ok (m1, names', values') ->
        exists ms, binds m0 l ms names' values' /\ map fst ((p, meta) :: ms) = map fst ((p, e) :: l) /\
          (forall k, ch_get m1 k = match get k ((p, meta) :: ms) with Some v => Some v | None => ch_get m k end) /\ grows m m1 /\ keeps m m1).
      { intros meta m' names' values' EI EB.
        assert (K : forall y, norm y <> p -> same_res m' m y) by (intros y Hy'; apply same_get; rewrite (ch_get_insert _ _ _ _ _ EI), (proj2 (str_eqb_neq _ _) Hy'); reflexivity).
        destruct (IH m' m1 names' values' NC HA') as (ms & B1 & B2 & B3 & B4 & B5); [| | |exact EB|].
        - intros k Hk. rewrite (ch_get_insert _ _ _ _ _ EI), (proj2 (str_eqb_neq _ _)); [exact (HD k Hk)|]. intros ->. rewrite <- Hn in Hk. exact (norm_dot p Hg Hk).
        - unfold same_res in *. rewrite <- HSelf. apply K. intros N. apply (norm_reserved p (norm (lit "self")) Hg); [left; reflexivity|]. rewrite Hn. symmetry. exact N.
        - intros a y Ha Hyy. unfold same_res in *. rewrite <- (HV a y (or_intror Ha) Hyy). apply K. intros N. rewrite <- Hn in N.
          rewrite Forall_forall in HA'. destruct (HA' a Ha) as (_ & _ & _ & Hfv). destruct (Hfv y Hyy) as [->|Hgy].
          + apply (norm_reserved p (norm (lit "loop")) Hg); [right; left; reflexivity|]. symmetry. exact N.
          + apply (good_inj y p Hgy Hg) in N. subst. exact (NF a Ha Hyy).
        - exists ms. split; [exact B1|]. split; [cbn [map fst]; rewrite B2; reflexivity|]. split.
          + intros k. rewrite B3. cbn [get]. rewrite (ch_get_insert _ _ _ _ _ EI). destruct (str_eqb k p) eqn:Ek; [|reflexivity].
            apply str_eqb_eq in Ek. subst k. rewrite get_notin; [reflexivity|]. rewrite B2. exact ND.
          + split; [eapply grows_trans; [eapply grows_insert; exact EI|exact B4]|eapply keeps_trans; [eapply keeps_insert; exact EI|exact B5]]. }
      assert (Copy : is_copied e = true -> (let! r := visit_expr_root inp m e in let! m' := ch_insert m p m_default in
                   let! (m'', names, values) := bind_pairs inp m' l in Ok (m'', p :: names, r :: values)) = Ok (m1, names, values) ->
        exists ms, binds m0 ((p, e) :: l) ms names values /\ map fst ms = map fst ((p, e) :: l) /\
          (forall k, ch_get m1 k = match get k ms with Some v => Some v | None => ch_get m k end) /\ grows m m1 /\ keeps m m1).
      { clear E. intros HC E. apply rbind_Ok in E as (r & E1 & E). apply rbind_Ok in E as (m' & E2 & E). apply rbind_Ok in E as ([[m2 ns] vs] & E3 & E). injection E as -> <- <-.
        destruct (Rest _ _ _ _ E2 E3) as (ms & B1 & B). exists ((p, m_default) :: ms). split; [|exact B].
        constructor; [exact HC| |exact B1]. unfold visit_expr_root in *. rewrite <- VE. exact E1. }
      destruct e; try (apply (Copy eq_refl); exact E); cbn [bind_pairs] in E.
      + destruct (str_eqb s (lit "self")) eqn:Es; [apply Copy; [exact Es|exact E]|]. apply rbind_Ok in E as (m' & E2 & E).
        destruct (Rest _ _ _ _ E2 E) as (ms & B1 & B). eexists. split; [|exact B].
        assert (Hgs : good s = true) by (cbn [plain] in Hpl; rewrite Es in Hpl; exact Hpl).
        destruct (var_ref A1 A2 F G m0 te re st lp s R Hgs) as (V1 & V2 & V3).
        assert (ES : ch_resolve_or_self m s = visit_var m0 s).
        { rewrite <- V1. unfold ch_resolve_or_self. rewrite (HV (p, Var s) s (or_introl eq_refl)) by (cbn [snd fv]; rewrite Es; left; reflexivity). reflexivity. }
        rewrite ES. eapply b_share; [exact Es|reflexivity|exact V2|exact V3|exact B1].
      + apply rbind_Ok in E as ([r wr] & E1 & E). cbv beta iota zeta in E. apply rbind_Ok in E as (m' & E2 & E).
        destruct (attr_ref _ _ _ _ _ E1) as (V2 & V3 & V4).
        assert (EN : ch_resolve m (show r) = None).
        { unfold ch_resolve. cbv zeta. rewrite HD; [reflexivity|]. destruct (norm_cases (show r)) as [->|[_ ->]]; [exact V4|do 2 right; exact V4]. }
        rewrite EN in E2. destruct (Rest _ _ _ _ E2 E) as (ms & B1 & B). eexists. split; [|exact B]. rewrite VE in E1. eapply b_share; [reflexivity|exact E1|exact V2|exact V3|exact B1].
  Qed.
  Inductive vals (ok : rexpr -> V w -> Prop) : list (str * expr) -> list (V w) -> list (str * lmeta) -> list str -> list (V w) -> Prop :=
  | v_nil : vals ok [] [] [] [] []
  | v_copy p e v l vs ms ns us : is_copied e = true -> vals ok l vs ms ns us -> vals ok ((p, e) :: l) (v :: vs) ((p, m_default) :: ms) (p :: ns) (v :: us)
  | v_share p e r v l vs ms ns us : ok r v -> vals ok l vs ms ns us -> vals ok ((p, e) :: l) (v :: vs) ((p, m_with_ref r) :: ms) ns us.
  Lemma binds_names m0 l ms names values : binds m0 l ms names values -> map fst ms = map fst l /\ (names = [] -> values = []).
  Proof. induction 1 as [|p e r l ms ns vs H1 H2 H3 [IH1 IH2]|p e r wr l ms ns vs H1 H2 H3 H4 H5 [IH1 IH2]]; cbn [map fst]; rewrite ?IH1; split; auto. discriminate. Qed.
  Lemma vals_keys ok l vs ms ns us : vals ok l vs ms ns us -> map fst (combine (map fst l) vs) = map fst l /\ map fst (combine ns us) = ns /\
    (forall x, In x ns -> exists e, In (x, e) l /\ is_copied e = true) /\
    (forall x u, In (x, u) (combine (map fst l) vs) -> (In (x, m_default) ms /\ In (x, u) (combine ns us)) \/ exists r, In (x, m_with_ref r) ms /\ ok r u).
  Proof.
    induction 1 as [|p e v l vs ms ns us Hc _ IH|p e r v l vs ms ns us Hok _ IH].
    - split; [reflexivity|]. split; [reflexivity|]. split; [intros x []|intros x u []].
    - destruct IH as (I1 & I2 & I3 & I4). cbn [map fst combine]. rewrite I1, I2. split; [reflexivity|]. split; [reflexivity|]. split.
      + intros x [<-|Hx]; [exists e; split; [left; reflexivity|exact Hc]|]. destruct (I3 x Hx) as (e' & H1 & H2). exists e'. split; [right; exact H1|exact H2].
      + intros x u [E|Hx]; [injection E as <- <-; left; split; left; reflexivity|]. destruct (I4 x u Hx) as [[H1 H2]|(r & H1 & H2)]; [left; split; right; assumption|right; exists r; split; [right; exact H1|exact H2]].
    - destruct IH as (I1 & I2 & I3 & I4). cbn [map fst combine]. rewrite I1, I2. split; [reflexivity|]. split; [reflexivity|]. split.
      + intros x Hx. destruct (I3 x Hx) as (e' & H1 & H2). exists e'. split; [right; exact H1|exact H2].
      + intros x u [E|Hx]; [injection E as <- <-; right; exists r; split; [left; reflexivity|exact Hok]|]. destruct (I4 x u Hx) as [[H1 H2]|(r' & H1 & H2)]; [left; split; [right; exact H1|exact H2]|right; exists r'; split; [right; exact H1|exact H2]].
  Qed.
  Definition ref_ok (A : list str) (re : env w) (st : store w) (r : rexpr) (v : V w) : Prop :=
    simple_ref r = true /\ normalize_text r = r /\ ref_names A r /\ reval w re st r = Done v.
  Lemma binds_vals A1 A2 F G m0 te re st lp A : Rel A1 A2 F G m0 te re st lp -> incl A1 A -> forall l ms names values, binds m0 l ms names values ->
    (forall a, In a l -> scoped_expr F A2 G (snd a) = true /\ (is_copied (snd a) = false -> simple_place (snd a) = true /\
       forall x, In x (fv (snd a)) -> known G x || str_eqb x (lit "loop") = true -> In x A)) ->
    match out_map (fun a => teval w inp te st lp Unset (snd a)) l with
    | Unset => True
    | Fails => out_map (reval w re st) values = Fails
    | Done vs => exists us, out_map (reval w re st) values = Done us /\ vals (ref_ok A re st) l vs ms names us
    end.
  Proof.
    intros R HA. induction 1 as [|p e r l ms ns vs H1 H2 H3 IH|p e r wr l ms ns vs H1 H2 H3 H4 H5 IH]; intros HE.
    - exists []. split; [reflexivity|constructor].
    - destruct (HE (p, e) (or_introl eq_refl)) as [E1 _]. cbn [snd] in E1. specialize (IH (fun a Ha => HE a (or_intror Ha))). cbn [out_map snd].
      pose proof (rel_root w inp A1 A2 F G m0 te re st lp R wok e r E1 H2) as ER. destruct (teval w inp te st lp Unset e) as [v| |]; cbn [obnd]; [|rewrite ER by discriminate; reflexivity|exact I].
      rewrite ER by discriminate. cbn [obnd]. destruct (out_map _ l) as [vs'| |]; cbn [obnd]; [|rewrite IH; reflexivity|exact I].
      destruct IH as (us & -> & IH). exists (v :: us). split; [reflexivity|]. constructor; assumption.
    - destruct (HE (p, e) (or_introl eq_refl)) as [E1 E2]. cbn [snd] in E1, E2. specialize (E2 H1) as [E2 E3]. specialize (IH (fun a Ha => HE a (or_intror Ha))). cbn [out_map snd].
      pose proof (rel_expr w inp A1 A2 F G m0 te re st lp R wok e Unset E1 r wr H2) as ER. pose proof (place_value te st lp e E2) as NF.
      destruct (teval w inp te st lp Unset e) as [v| |]; cbn [obnd]; [|congruence|exact I].
      destruct (out_map _ l) as [vs'| |]; cbn [obnd]; [|exact IH|exact I].
      destruct IH as (us & IH1 & IH2). exists us. split; [exact IH1|]. constructor; [|exact IH2]. split; [exact H3|]. split; [exact H4|]. split; [|apply ER; discriminate].
      destruct (scoped_inv w A1 A2 F G m0 te re st lp R e E1) as (S1 & S2 & _).
      intros n Hn. pattern n. eapply (place_names A1 A2 F G m0 te re st lp e _ R S1 E2); [left; reflexivity| |exact S2| |exact H2|exact Hn].
      + intros a Ha. right. exists a. auto.
      + intros x Hx Hk. right. exists x. auto.
  Qed.
  Lemma args_inv A1 A2 F G l : scoped_args F A1 A2 G l = true -> no_clash l = true /\ forall p e, In (p, e) l -> good p = true /\ norm p = p /\ scoped_expr F A2 G e = true /\
    (is_copied e = true -> ~ In p A1 /\ ~ In p (shared_names G l)) /\ (is_copied e = false -> simple_place e = true).
  Proof.
    unfold scoped_args. intros H. apply andb_prop in H as [H1 H2]. split; [exact H1|]. intros p e Hi. rewrite forallb_forall in H2. specialize (H2 (p, e) Hi). cbn [fst snd] in H2.
    apply andb_prop in H2 as [H2 H3]. apply andb_prop in H2 as [H2 H4]. apply andb_prop in H2 as [H2 H5]. apply str_eqb_eq in H5.
    split; [exact H2|]. split; [exact H5|]. split; [exact H4|]. destruct (is_copied e); (split; [|intros E; try discriminate E]).
    - intros _. apply andb_prop in H3 as [H6 H7]. rewrite negb_true_iff in H6, H7. split; intros Hx; apply mem_str_In in Hx; congruence.
    - discriminate.
    - exact H3.
  Qed.
  Lemma shared_in G l p e x : In (p, e) l -> is_copied e = false -> In x (fv e) -> known G x || str_eqb x (lit "loop") = true -> In x (shared_names G l).
  Proof.
    intros H1 H2 H3 H4. unfold shared_names. apply filter_In. split; [|exact H4]. apply in_concat. exists (fv e). split; [|exact H3].
    apply in_map_iff. exists (p, e). split; [|exact H1]. cbn [snd]. rewrite H2. reflexivity.
  Qed.
  Lemma shared_good A1 A2 F G m te re st lp l x : Rel A1 A2 F G m te re st lp -> In x (shared_names G l) -> x = lit "loop" \/ good x = true.
  Proof.
    intros R H. apply filter_In in H as [_ H]. apply orb_prop in H as [H|H]; [right|left; apply str_eqb_eq; exact H].
    apply (r_vars _ _ _ _ _ _ _ _ _ _ R). unfold known in H. destruct (get x G); [discriminate|discriminate H].
  Qed.
  Lemma in_get {X} k (v : X) l : NoDup (map fst l) -> In (k, v) l -> get k l = Some v.
  Proof.
    induction l as [|[k' v'] l IH]; intros ND H; [destruct H|]. cbn [map fst] in ND. inversion ND as [|? ? N ND']; subst. cbn [get]. destruct H as [H|H].
    - injection H as -> ->. rewrite str_eqb_refl. reflexivity.
    - destruct (str_eqb k k') eqn:E; [|auto]. apply str_eqb_eq in E. subst. exfalso. apply N. apply (in_map fst) in H. exact H.
  Qed.
  Lemma lookup_vals bs en k v : NoDup (map fst bs) -> In (k, v) bs -> lookup (bind_vals w bs en) k = Some (Val w v).
  Proof.
    intros ND H. unfold lookup, Sem.lookup, bind_vals. rewrite get_app. rewrite (in_get k (Val w v)); [reflexivity| |].
    - rewrite map_rev, map_map. cbn [fst]. apply NoDup_rev. exact ND.
    - apply -> in_rev. apply in_map_iff. exists (k, v). auto.
  Qed.
  Lemma clash_NoDup l : no_clash l = true -> NoDup (map fst l).
  Proof. induction l as [|[p e] l IH]; intros H; [constructor|]. apply clash_inv in H as (H1 & H2 & _). constructor; [exact H2|auto]. Qed.
  Lemma binds_in m0 l ms names values : binds m0 l ms names values -> forall x, In x names -> exists e, In (x, e) l /\ is_copied e = true.
  Proof.
    induction 1 as [|p e r l ms ns vs H1 H2 H3 IH|p e r wr l ms ns vs H1 H2 H3 H4 H5 IH]; intros x Hx; [destruct Hx| |].
    - destruct Hx as [<-|Hx]; [exists e; split; [left; reflexivity|exact H1]|]. destruct (IH x Hx) as (e' & E1 & E2). exists e'. split; [right; exact E1|exact E2].
    - destruct (IH x Hx) as (e' & E1 & E2). exists e'. split; [right; exact E1|exact E2].
  Qed.
  Lemma nodup_sub ok l vs ms ns us : vals ok l vs ms ns us -> NoDup (map fst l) -> NoDup ns.
  Proof.
    induction 1 as [|p e v l vs ms ns us Hc Hv IH|p e r v l vs ms ns us Hok Hv IH]; intros ND; cbn [map fst] in ND; [constructor| |]; inversion ND as [|? ? N ND']; subst; [|auto].
    constructor; [|auto]. intros Hi. destruct (vals_keys _ _ _ _ _ _ Hv) as (_ & _ & K & _). destruct (K p Hi) as (e' & He & _). apply N. apply (in_map fst) in He. exact He.
  Qed.
  Lemma macro_rel A1 A2 F G m m1 te re st lp l ms vs ns us : Rel A1 A2 F G m te re st lp -> scoped_args F A1 A2 G l = true ->
    (forall k, ch_get m1 k = match get k ms with Some v => Some v | None => ch_get m k end) -> map fst ms = map fst l ->
    vals (ref_ok (shared_names G l ++ A1) re st) l vs ms ns us ->
    Rel (shared_names G l ++ A1) (map fst l ++ A2) (minus F (map fst l)) (bind_vars false (map fst l) G) m1
        (bind_vals w (combine (map fst l) vs) te) (bind_vals w (combine ns us) re) st lp.
  Proof.
    intros R HA HM HK HV. apply args_inv in HA as [NC HA]. pose proof (clash_NoDup l NC) as ND. pose proof (nodup_sub _ _ _ _ _ _ HV ND) as NDn.
    destruct (vals_keys _ _ _ _ _ _ HV) as (K1 & K2 & K3 & K4). set (xs := map fst l) in *.
    assert (GX : forall x, In x xs -> good x = true /\ norm x = x).
    { intros x Hx. apply in_map_iff in Hx as ([p e] & <- & Hi). destruct (HA p e Hi) as (H1 & H2 & _). auto. }
    assert (NX : map norm xs = xs).
    { rewrite <- (map_id xs) at 2. apply map_ext_in. intros x Hx. apply GX. exact Hx. }
    assert (IN : incl ns xs).
    { intros x Hx. destruct (K3 x Hx) as (e & He & _). apply (in_map fst) in He. exact He. }
    assert (LE : forall n, ~ In n ns -> lookup (bind_vals w (combine ns us) re) n = lookup re n) by (intros n Hn; apply lookup_bind_other; rewrite K2; exact Hn).
    assert (SH : forall a, In a (shared_names G l ++ A1) -> a = lit "loop" \/ good a = true).
    { intros a Ha. apply in_app_or in Ha as [Ha|Ha]; [eapply shared_good; eassumption|exact (r_shared _ _ _ _ _ _ _ _ _ _ R a Ha)]. }
    assert (LA : forall a, In a (shared_names G l ++ A1) -> lookup (bind_vals w (combine ns us) re) (rn a) = lookup re (rn a)).
    { intros a Ha. apply LE. intros Hn. destruct (GX _ (IN _ Hn)) as [G1 G2]. destruct (SH a Ha) as [->|Hg].
      - apply (norm_item _ G1). exact G2.
      - rewrite rn_good in Hn, G1, G2 by exact Hg. apply (good_inj (norm a) a) in G2; [|exact G1|exact Hg]. rewrite G2 in Hn.
        destruct (K3 a Hn) as (e & He & Hc). destruct (HA a e He) as (_ & _ & _ & HC & _). destruct (HC Hc) as [N1 N2]. apply in_app_or in Ha as [Ha|Ha]; contradiction. }
    eapply Rel_over with (xs := xs); [exact R|apply incl_appr, incl_refl|exact SH|apply incl_appr, incl_refl|..].
    - intros x Hx. apply GX. exact Hx.
    - intros k Hk. rewrite NX in Hk. rewrite HM, get_notin; [reflexivity|]. rewrite HK. exact Hk.
    - intros x Hx. rewrite get_bind_vars. destruct (mem_str x xs) eqn:E; [apply mem_str_In in E; contradiction|reflexivity].
    - intros x Hx. apply lookup_bind_other. rewrite K1. exact Hx.
    - intros x meta Hg Hx _ _. apply LE. intros Hn. apply Hx. apply IN in Hn. destruct (GX _ Hn) as [G1 G2]. apply (good_inj (norm x) x G1 Hg) in G2. rewrite G2 in Hn. exact Hn.
    - intros a Ha. apply LA. apply in_or_app. right. exact Ha.
    - apply LE. intros Hn. apply IN in Hn. destruct (GX _ Hn) as [G1 _]. discriminate G1.
    - apply mono_refl.
    - intros x Hx. destruct (GX x Hx) as [G1 G2]. rewrite G2. assert (Hi : exists u, In (x, u) (combine xs vs)).
      { rewrite <- K1 in Hx. apply in_map_iff in Hx as ([y u] & <- & Hi). eauto. }
      destruct Hi as [u Hi]. assert (LT : lookup (bind_vals w (combine xs vs) te) x = Some (Val w u)) by (apply lookup_vals; [rewrite K1; exact ND|exact Hi]).
      assert (NDm : NoDup (map fst ms)) by (rewrite HK; exact ND).
      assert (GV : get x (bind_vars false xs G) = Some false) by (rewrite get_bind_vars, (proj2 (mem_str_In _ _) Hx); reflexivity).
      destruct (K4 x u Hi) as [[M1 M2]|(r & M1 & M2 & M3 & M4 & M5)].
      + exists m_default. rewrite HM, (in_get _ _ _ NDm M1). split; [reflexivity|]. unfold slot_rel. cbn [l_refs m_default]. rewrite GV. split; [right; apply in_or_app; left; exact Hx|].
        exists u, (Val w u). split; [exact LT|]. rewrite G2. split; [|reflexivity]. apply lookup_vals; [rewrite K2; exact NDn|exact M2].
      + exists (m_with_ref r). rewrite HM, (in_get _ _ _ NDm M1). split; [reflexivity|]. unfold slot_rel. cbn [l_refs m_with_ref]. rewrite GV. split; [apply in_or_app; left; exact Hx|].
        split; [exact M2|]. split; [exact M3|]. split; [exact M4|]. exists u. split; [exact LT|]. eapply reval_mono; [apply mono_refl| |exact M5].
        intros n Hn. destruct (M4 n Hn) as [->|(a & Ha & ->)]; [left; reflexivity|right; apply LA; exact Ha].
    - intros x Hx. apply minus_In in Hx. exact Hx.
  Qed.
  Lemma bind_exec names values re st us : (names = [] -> values = []) -> out_map (reval w re st) values = Done us ->
    xlist (bind_code names values) re st = Done ([], bind_vals w (combine names us) re, st, Next).
  Proof.
    intros H1 H2. destruct names as [|x ns]; [reflexivity|]. cbn [bind_code]. rewrite exec_one. cbn [exec]. rewrite H2. reflexivity.
  Qed.
  Lemma macro_sim m b c l body m1 names values c1 m2 b2 c2 m3 : flushed inp (ch_push m) b c -> bind_pairs inp (ch_push m) l = Ok (m1, names, values) ->
    (grows (ch_push m) m1) -> PList m1 [] body c1 m2 b2 -> flushed inp m2 b2 c2 -> ch_pop m2 = Ok m3 ->
    PNode m b (TMacro l body) (c ++ [SBlock (bind_code names values ++ c1 ++ c2)]) m3 [].
  Proof.
    intros Fl BP GR L Fl2 PO. assert (m3 = m) as -> by (eapply pop_grows; [eapply grows_trans; [exact GR|exact (proj1 L)]|exact PO]).
    split; [apply grows_refl|]. split; [apply keeps_refl|]. split; [intros A1 A2 F G G' _; discriminate|].
    intros A1 A2 F lp G G' HS. cbn [scoped_node] in HS. destruct (_ && _) eqn:HC; [|discriminate HS]. injection HS as <-.
    apply andb_prop in HC as [HA HB]. eapply Sim_chain; [apply ch_get_push|].
    cut (Sim A1 A2 F lp G G (ch_push m) (ch_push m) b [] (mean w inp lp (TMacro l body)) (c ++ [SBlock (bind_code names values ++ c1 ++ c2)]) [] false).
    { intros H te re st p0 R P. specialize (H te re st p0 R P). destruct (mean w inp lp _ te st) as [[[[o te'] st'] fl]| |]; [|exact H|exact H].
      destruct H as [H|(s & re' & X & M & E & OO & D)]; [left; exact H|right]. exists s, re'. split; [exact X|]. split; [exact M|]. split; [exact E|]. split; [exact OO|].
      destruct fl; try exact D. destruct D as (p' & D1 & D2 & D3). exists p'. split; [exact D1|]. split; [eapply Rel_chain; [|exact D2]; intros; symmetry; apply ch_get_push|].
      rewrite (PInv_nil_inv w inp _ _ _ _ _ _ D3). apply PInv_nil. }
    apply Sim_flush; [exact Fl|]. apply Ctl_body. intros te re st R. cbn [mean exec].
    destruct (args_inv _ _ _ _ _ HA) as [NC HI].
    destruct (bind_ok A1 A2 F G (ch_push m) te re st lp R l (ch_push m) m1 names values NC) as (ms & B1 & B2 & B3 & _); [| | | |exact BP|].
    - apply Forall_forall. intros [p e] Hi. destruct (HI p e Hi) as (H1 & H2 & H3 & _). destruct (scoped_inv w A1 A2 F G _ te re st lp R e H3) as (S1 & S2 & _).
      split; [exact H1|]. split; [exact H2|]. split; [exact S1|]. intros y Hy. destruct (str_eqb y (lit "loop")) eqn:E; [left; apply str_eqb_eq; exact E|right].
      apply S2; [exact Hy|]. apply str_eqb_neq. exact E.
    - intros k Hk. eapply key_dot; eassumption.
    - reflexivity.
    - reflexivity.
    - pose proof (binds_vals A1 A2 F G (ch_push m) te re st lp (shared_names G l ++ A1) R (incl_appr _ (incl_refl _)) l ms names values B1) as BV.
      destruct (binds_names _ _ _ _ _ B1) as [_ BN].
      destruct (out_map _ l) as [vs| |]; cbn [obnd]; [| |exact I].
      + destruct BV as (us & U1 & U2).
        { intros [p e] Hi. destruct (HI p e Hi) as (_ & _ & H3 & _ & H5). split; [exact H3|]. intros Hc. split; [auto|]. intros x Hx Hk. apply in_or_app. left. eapply shared_in; eassumption. }
        pose proof (macro_rel A1 A2 F G _ m1 te re st lp l ms vs names us R HA B3 B2 U2) as R1.
        destruct (PList_body w inp _ _ _ lp _ m1 body c1 c2 m2 b2 L Fl2 HB) as [G2 BD].
        pose proof (scope_ctl w inp _ _ _ lp _ G2 m1 m2 body (c1 ++ c2) (tops body) te _ re _ st BD R1) as SC.
        unfold exec_block in *. rewrite exec_app, (bind_exec names values re st us BN U1). cbn [obnd].
        unfold Ctl in *. destruct (mean_scope _ _ _ _ _ _) as [[[[o te'] st'] fl]| |]; [| |exact I].
        * destruct (exec_list w (exec w) (c1 ++ c2) _ st) as [[[[o1 re1] st1] fl1]| |]; cbn [obnd app] in *; exact SC.
        * destruct (exec_list w (exec w) (c1 ++ c2) _ st) as [[[[o1 re1] st1] fl1]| |]; cbn [obnd app] in *; exact SC.
      + unfold exec_block. rewrite exec_app. destruct names as [|x ns].
        * rewrite (BN eq_refl) in BV. specialize (BV ltac:(intros [p e] Hi; destruct (HI p e Hi) as (_ & _ & H3 & _ & H5); split; [exact H3|]; intros Hc; split; [auto|]; intros x Hx Hk; apply in_or_app; left; eapply shared_in; eassumption)). discriminate BV.
        * cbn [bind_code]. rewrite exec_one. cbn [exec]. rewrite BV; [reflexivity|]. intros [p e] Hi; destruct (HI p e Hi) as (_ & _ & H3 & _ & H5); split; [exact H3|]; intros Hc; split; [auto|]; intros y Hx Hk; apply in_or_app; left; eapply shared_in; eassumption.
  Qed.
  (** ** Filter blocks *)
  Lemma fresh_ok fuel m : forall id var, fresh_filter_name fuel m id = GOk var -> ch_get m var = None /\ exists id, var = filter_block_name id.
  Proof.
    induction fuel as [|f IH]; intros id var E; cbn [fresh_filter_name] in E; destruct (ch_get m (filter_block_name id)) eqn:Em; try discriminate E; try (injection E as <-; eauto); eauto.
  Qed.
  Lemma out_tops ts : forallb only_output ts = true -> tops ts = [].
  Proof.
    induction ts as [|t ts IH]; intros H; [reflexivity|]. cbn [forallb] in H. apply andb_prop in H as [H1 H2]. rewrite tops_cons, IH by exact H2. destruct t; try discriminate H1; reflexivity.
  Qed.
  Lemma scoped_args_of F A2 G n l : scoped_expr F A2 G (Filter n l) = true -> Forall (fun e => scoped_expr F A2 G e = true) l.
  Proof.
    unfold scoped_expr. intros H. apply andb_prop in H as [H H3]. apply andb_prop in H as [H1 H2]. cbn [plain fv called] in *.
    induction l as [|a l IH]; constructor; cbn [forallb] in H1; apply andb_prop in H1 as [P1 P2]; rewrite forallb_app in H2, H3; apply andb_prop in H2 as [F1 F2]; apply andb_prop in H3 as [C1 C2].
    - rewrite P1, F1, C1. reflexivity.
    - apply IH; assumption.
  Qed.
  Lemma writ_scoped A1 A2 F G m te re st lp e : Rel A1 A2 F G m te re st lp -> scoped_expr F A2 G e = true -> writ_ok A1 F m (WExpr e).
  Proof.
    intros R HS. destruct (scoped_inv w A1 A2 F G m te re st lp R e HS) as (Hp & Hf & _). split; [exact Hp|]. intros y Hy.
    destruct (str_eqb y (lit "loop")) eqn:L; [left; apply str_eqb_eq; exact L|right]. apply str_eqb_neq in L. destruct (Hf y Hy L) as [Hg Hk]. split; [exact Hg|].
    destruct Hk as [Hk|Hk]; [right; exact Hk|left]. destruct (known_key w A1 A2 F G m te re st lp R y Hk) as (meta & _ & Em). congruence.
  Qed.
  Lemma filter_sim m b name args body c m1 b1 var named z parts named' s r wr m2 :
    fresh_filter_name (chain_size m) m O = GOk var -> PList m [] body c m1 b1 -> prepare_format inp m1 b1 named = Ok (z, parts, named') ->
    match parts with NoParts => False | LitParts t => s = SLetStr var t | FmtParts f a => s = SLetFmt var f a end ->
    visit_expr inp m1 (insert_in_filter var (Filter name args)) = Ok (r, wr) -> ch_insert m1 var m_initialized = Ok m2 ->
    PNode m b (TFilter name args body) (c ++ [s]) m2 (b ++ [WGen r wr]).
  Proof.
    intros FF (GR & KE & FB & HL) PF HS VE CI. apply fresh_ok in FF as [VN [id ->]]. set (var := filter_block_name id) in *.
    assert (VF : is_fb var = true) by apply fb_name_is.
    assert (NV : forall n, is_fb n = false -> n <> var) by (intros n Hn ->; congruence).
    split; [eapply grows_trans; [exact GR|eapply grows_insert; exact CI]|]. split; [eapply keeps_trans; [exact KE|eapply keeps_insert; exact CI]|].
    assert (KK : forall k, ch_get m2 k = if str_eqb k var then Some m_initialized else ch_get m1 k) by (intros k; exact (ch_get_insert _ _ _ _ _ CI)).
    assert (SC : forall A1 A2 F G G', scoped_node A1 A2 F G (TFilter name args body) = Some G' -> G' = G /\ scoped_expr F A2 G (Filter name args) = true /\
      forallb only_output body = true /\ exists G1, scoped_list (scoped_node A1 A2 F) G body = Some G1).
    { intros A1 A2 F G G' HSc. cbn [scoped_node] in HSc. destruct (_ && _) eqn:HC; [|discriminate HSc]. injection HSc as <-.
      apply andb_prop in HC as [HC HB]. apply andb_prop in HC as [HC HO]. apply andb_prop in HC as [HE _]. split; [reflexivity|]. split; [exact HE|]. split; [exact HO|].
      rewrite minus_id in HB by (intros x []). unfold closed in HB. change (bind_vars false [] G) with G in HB.
      destruct (scoped_list (scoped_node A1 A2 F) G body) as [G1|]; [eauto|discriminate HB]. }
    split.
    { intros A1 A2 F G G' HSc _ k Hk. destruct (SC _ _ _ _ _ HSc) as (_ & _ & HO & G1 & ES). rewrite KK, (proj2 (str_eqb_neq _ _) (NV k Hk)). exact (FB _ _ _ _ _ ES HO k Hk). }
    intros A1 A2 F lp G G' HSc. destruct (SC _ _ _ _ _ HSc) as (-> & HE & HO & G1 & ES). clear SC HSc.
    specialize (HL A1 A2 F lp G G1 ES). specialize (FB A1 A2 F G G1 ES HO). rewrite (out_tops body HO) in HL. rewrite HO in HL.
    intros te re st p R P. specialize (HL te re st (Some []) R (PInv_nil w inp A1 F m re st)). cbn [mean]. rewrite exec_app.
    destruct (mean_list w (mean w inp lp) body te st) as [[[[o te1] st1] fl]| |]; cbn [obnd]; [|rewrite HL; reflexivity|exact I].
    destruct fl; [|exact I|exact I]. rewrite tapp_nil_l in HL. destruct HL as [[X ->]|(s0 & re1 & X & M & E & OO & p' & Hp & R1 & P1)].
    { rewrite X. left. split; [reflexivity|]. apply tapp_none_r. }
    destruct (OO eq_refl) as [-> EF]. rewrite tapp_nil_l in Hp. subst o. rewrite X. cbn [obnd]. rewrite exec_one.
    pose proof (prepare_format_val w inp m1 re1 st1 b1 named z parts named' p' PF (proj2 P1 (prepare_vis _ _ _ _ _ _ _ PF))) as PV.
    assert (XS : exec w s re1 st1 = match p' with Some t => Done ([], (var, Val w (w_text w t)) :: re1, st1, Next) | None => Fails end).
    { destruct parts as [|t|f a]; [destruct HS|subst s|subst s]; cbn [parts_val exec] in *.
      - destruct p'; [injection PV as ->; reflexivity|discriminate PV].
      - rewrite PV. destruct p'; reflexivity. }
    rewrite XS. destruct p' as [t|]; [|left; split; [reflexivity|apply tapp_none_r]]. cbn [obnd app].
    set (re2 := (var, Val w (w_text w t)) :: re1).
    assert (L2 : forall n, n <> var -> lookup re2 n = lookup re1 n) by (intros n Hn; unfold re2, lookup, Sem.lookup; cbn [get]; rewrite (proj2 (str_eqb_neq _ _) Hn); reflexivity).
    assert (LV : forall n, is_fb n = false -> lookup re2 n = lookup re n).
    { intros n Hn. rewrite L2 by (apply NV; exact Hn). apply E; [exact Hn|intros y []]. }
    assert (RR : forall mm, (forall k, is_fb k = false -> ch_get mm k = ch_get m k) -> (forall k, ch_get mm k <> None -> k = var \/ ch_get m1 k <> None) -> Rel A1 A2 F G mm te re2 st1 lp).
    { intros mm H1 H2. eapply Rel_stable; [exact R|exact H1| |intros n Hn _; apply LV; exact Hn|exact M].
      intros k Hk. destruct (H2 k Hk) as [->|Hk1]; [right; exists id; reflexivity|].
      destruct (r_keys _ _ _ _ _ _ _ _ _ _ R1 k Hk1) as [(x & Hx & ->)|Hid]; [left|right; exact Hid]. rewrite <- H1 by (apply norm_fb; exact Hx). exact Hk. }
    assert (Ra : Rel A1 A2 F G m1 te re2 st1 lp) by (apply RR; auto).
    assert (Rb : Rel A1 A2 F G m2 te re2 st1 lp).
    { apply RR; intros k Hk; [rewrite KK, (proj2 (str_eqb_neq _ _) (NV k Hk)); apply FB; exact Hk|]. rewrite KK in Hk. destruct (str_eqb k var) eqn:Ek; [left; apply str_eqb_eq; exact Ek|right; exact Hk]. }
    set (gen := Done (w_text w t)). set (e := Filter name args) in *.
    assert (AG : agree w inp m1 te re2 st1 lp gen (insert_in_filter var e)).
    { apply insert_ok with (R := fun e => scoped_expr F A2 G e = true); [apply scoped_args_of| | | |exact HE].
      - intros e' He'. eapply rel_expr; eassumption.
      - intros r' wr' V' _. cbn [visit_expr] in V'. injection V' as <- <-. cbn [reval teval].
        rewrite (proj2 (str_eqb_neq _ _)); [|intros N; rewrite N in VF; discriminate VF]. unfold read, re2, Sem.lookup. cbn [get]. rewrite str_eqb_refl. reflexivity.
      - intros n l Hl. apply agree_filter. exact Hl. }
    assert (NM : names_ok inp m1 (fun n => n = lit "self" \/ live A1 m2 n) (insert_in_filter var e)).
    { apply insert_ok with (R := fun e => scoped_expr F A2 G e = true); [apply scoped_args_of| | | |exact HE].
      - intros e' He' r' wr' V' n Hn. destruct (live_names inp A1 F m1 e' (rel_refs _ _ _ _ _ _ _ _ _ _ Ra) (writ_scoped _ _ _ _ _ _ _ _ _ _ Ra He') r' wr' V' n Hn) as [H|H]; [left; exact H|right].
        destruct H as [H|[H|H]]; [left; exact H|right; left|right; right; exact H]. rewrite KK. destruct (str_eqb n var); [discriminate|exact H].
      - intros r' wr' V' n Hn. cbn [visit_expr] in V'. injection V' as <- <-. destruct Hn as [<-|[]]. right. right. left. rewrite KK, str_eqb_refl. discriminate.
      - intros n l Hl. apply names_filter; exact Hl. }
    pose proof (AG r wr VE) as AV. rewrite (insert_teval w inp te st1 lp gen var []) in AV. pose proof (visit_wrap _ _ _ _ _ VE) as HW. unfold e in HW. rewrite insert_opts in HW.
    unfold show_expr. rewrite feed_insert. destruct (teval w inp te st1 lp gen (insert_in_filter [] e)) as [v| |] eqn:ET; cbn [obnd]; [| |exact I].
    all: right; exists [], re2; split; [reflexivity|]; split; [exact M|]; split; [intros n Hn _; apply LV; exact Hn|]; split; [intros _; split; [reflexivity|]; intros n Hn Hf; rewrite L2 by (intros ->; congruence); apply EF; assumption|].
    all: eexists; split; [rewrite tapp_nil_l; reflexivity|]; split; [exact Rb|].
    all: apply PInv_add; [|intros n Hn; exact (NM r wr VE n Hn)|].
    all: try (intros _; cbn [item_val FlushFacts.item_expr]; unfold rshow, shown, e; rewrite ?insert_opts, HW; destruct (opts_out (Filter name args)); cbn [reval]; rewrite AV by discriminate; reflexivity).
    all: eapply PInv_step; [exact P|eapply rel_refs; exact R|exact (r_keys _ _ _ _ _ _ _ _ _ _ R)|exact (r_keys _ _ _ _ _ _ _ _ _ _ Rb)| | |exact M].
    all: try (intros y Hy Hk; assert (EK : ch_get m2 (norm y) = ch_get m (norm y)) by (pose proof (norm_fb y Hy) as NF; rewrite KK, (proj2 (str_eqb_neq _ _) (NV _ NF)); apply FB; exact NF);
      split; [apply same_get; symmetry; exact EK|rewrite EK; exact Hk]).
    all: intros n Hn.
    all: assert (LN : lookup re2 n = lookup re n) by
      (destruct (is_fb n) eqn:Hf; [|apply LV; exact Hf]; destruct Hn as [->|[Hn|(a & Ha & ->)]]; [discriminate Hf| |rewrite rn_fb in Hf by exact (r_shared _ _ _ _ _ _ _ _ _ _ R a Ha); discriminate Hf];
       rewrite L2 by (intros ->; congruence); apply EF; assumption).
    all: split; [|exact LN]; destruct Hn as [Hn|[Hn|Hn]]; [left; exact Hn|right; left|right; right; exact Hn]; rewrite KK; destruct (str_eqb n var); [discriminate|apply KE; exact Hn].
  Qed.
End Scope.
