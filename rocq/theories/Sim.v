(** * The generated code does what the template means. *)
From Verif Require Import Base Ws Ast Ident IdentFacts GenExpr Heritage Gen Sem RefSem RexprFacts FlushFacts Scoped HeritageFacts SimExpr SimFacts GenSteps GenElab SimRel SimBuf SimNode SimCtl SimScope.
From Coq Require Import Lia.
Local Open Scope N_scope.

(** ** [scoped] excludes what the generator leaves out. *)
Section TnodeInd.
  Variable P : tnode -> Prop.
  Hypothesis Htext : forall s, P (TText s).
  Hypothesis Hexpr : forall e, P (TExpr e).
  Hypothesis Hlet : forall t e, P (TLet t e).
  Hypothesis Hif : forall bs, Forall (fun x => Forall P (snd x)) bs -> P (TIf bs).
  Hypothesis Hmatch : forall e bs, Forall (fun x => Forall P (snd x)) bs -> P (TMatch e bs).
  Hypothesis Hfor : forall t it c a b d, Forall P a -> Forall P b -> Forall P d -> P (TFor t it c a b d).
  Hypothesis Hblock : forall b, Forall P b -> P (TBlock b).
  Hypothesis Hinclude : forall b, Forall P b -> P (TInclude b).
  Hypothesis Hmacro : forall l b, Forall P b -> P (TMacro l b).
  Hypothesis Hfilter : forall x l b, Forall P b -> P (TFilter x l b).
  Hypothesis Hbreak : P TBreak.
  Hypothesis Hcontinue : P TContinue.
  Fixpoint tnode_ind' (n : tnode) : P n :=
    let many := fix many (l : list tnode) : Forall P l :=
      match l with [] => Forall_nil P | n :: l' => Forall_cons n (tnode_ind' n) (many l') end in
    match n with
    | TText s => Htext s | TExpr e => Hexpr e | TLet t e => Hlet t e
    | TIf bs => Hif bs ((fix f (l : list (option cond_test * list tnode)) : Forall (fun x => Forall P (snd x)) l :=
        match l with [] => Forall_nil _ | c :: l' => Forall_cons c (many (snd c)) (f l') end) bs)
    | TMatch e bs => Hmatch e bs ((fix f (l : list (target * list tnode)) : Forall (fun x => Forall P (snd x)) l :=
        match l with [] => Forall_nil _ | c :: l' => Forall_cons c (many (snd c)) (f l') end) bs)
    | TFor t it c a b d => Hfor t it c a b d (many a) (many b) (many d)
    | TBlock b => Hblock b (many b) | TInclude b => Hinclude b (many b) | TMacro l b => Hmacro l b (many b) | TFilter x l b => Hfilter x l b (many b)
    | TBreak => Hbreak | TContinue => Hcontinue
    end.
End TnodeInd.
Definition clean (n : tnode) : Prop := forall A1 A2 F G G', scoped_node A1 A2 F G n = Some G' -> junk n = false.
Lemma clean_list l : Forall clean l -> forall A1 A2 F G G', scoped_list (scoped_node A1 A2 F) G l = Some G' -> junks l = false.
Proof.
  induction 1 as [|n l Hn Hl IH]; intros A1 A2 F G G' E; [reflexivity|]. cbn [scoped_list] in E. destruct (scoped_node A1 A2 F G n) as [G1|] eqn:E1; [|discriminate E]. cbn [obind] in E.
  cbn [junks]. rewrite (Hn _ _ _ _ _ E1), (IH _ _ _ _ _ E). reflexivity.
Qed.
Lemma clean_closed l A1 A2 F G : Forall clean l -> closed (scoped_node A1 A2 F) G l = true -> junks l = false.
Proof. intros H E. unfold closed in E. destruct (scoped_list _ G l) as [G'|] eqn:E1; [|discriminate E]. eapply clean_list; eassumption. Qed.
Ltac checked H := match type of H with (if ?c then _ else _) = Some _ => destruct c eqn:?; [|discriminate H] end.
Lemma scoped_clean n : clean n.
Proof.
  induction n using tnode_ind'; intros A1 A2 F G G' E; try reflexivity; cbn [scoped_node] in E; checked E; clear E;
    repeat match goal with E : _ && _ = true |- _ => apply andb_prop in E as [? ?] end.
  - rewrite junk_if. match goal with E : negb _ = true |- _ => apply negb_true_iff in E; rewrite E end. cbn [orb].
    match goal with E : scoped_branches _ _ _ _ _ _ = true |- _ => revert E end. clear - H. induction H as [|[t b] bs Hb Hbs IH]; intros E; [reflexivity|].
    cbn [scoped_branches] in E. apply andb_prop in E as [E1 E2]. cbn [junks_in snd] in *. fold (@junks_in (option cond_test) bs) in *. rewrite (IH E2).
    destruct (scoped_test F A1 A2 G t) as [[F' G']|]; [|discriminate E1]. rewrite (clean_closed _ _ _ _ _ Hb E1). reflexivity.
  - rewrite junk_match. match goal with E : scoped_arms _ _ _ _ _ _ = true |- _ => revert E end. clear - H. induction H as [|[t b] bs Hb Hbs IH]; intros E; [reflexivity|].
    cbn [scoped_arms] in E. apply andb_prop in E as [E1 E2]. apply andb_prop in E1 as [_ E1]. cbn [junks_in snd] in *. rewrite (IH E2), (clean_closed _ _ _ _ _ Hb E1). reflexivity.
  - rewrite junk_for. repeat match goal with E : closed _ _ ?l = true |- _ => rewrite (clean_closed l _ _ _ _ ltac:(assumption) E); clear E end. reflexivity.
  - rewrite junk_block. eapply clean_closed; eassumption.
  - rewrite junk_include. eapply clean_closed; eassumption.
  - rewrite junk_macro. eapply clean_closed; eassumption.
  - rewrite junk_filter. match goal with E : negb _ = true |- _ => apply negb_true_iff in E; rewrite E end. match goal with E : forallb _ _ = true |- _ => rewrite E end.
    cbn [negb orb]. eapply clean_closed; eassumption.
Qed.

(** ** The induction *)
Scheme cg_list_mut := Induction for cg_list Sort Prop
  with cg_node_mut := Induction for cg_node Sort Prop
  with cg_branches_mut := Induction for cg_branches Sort Prop
  with cg_arms_mut := Induction for cg_arms Sort Prop.
Combined Scheme cg_ind from cg_list_mut, cg_node_mut, cg_branches_mut, cg_arms_mut.

Section Sim.
  Variables (w : world) (inp : ginput).
  Hypothesis wok : world_ok w.
  Notation PList := (PList w inp).
  Notation PNode := (PNode w inp).
  Lemma bind_grows l : forall m m1 names values, bind_pairs inp m l = Ok (m1, names, values) -> grows m m1.
  Proof.
    induction l as [|[p e] l IH]; intros m m1 names values E; [injection E as <- _ _; apply grows_refl|].
    assert (Copy : (let! r := visit_expr_root inp m e in let! m' := ch_insert m p m_default in
                   let! (m'', names, values) := bind_pairs inp m' l in Ok (m'', p :: names, r :: values)) = Ok (m1, names, values) -> grows m m1).
    { intros H. apply rbind_Ok in H as (r & _ & H). apply rbind_Ok in H as (m' & H1 & H). apply rbind_Ok in H as ([[m'' ns] vs] & H2 & H). injection H as <- _ _.
      eapply grows_trans; [eapply grows_insert; exact H1|eapply IH; exact H2]. }
    destruct e; try exact (Copy E); cbn [bind_pairs] in E.
    - destruct (str_eqb s (lit "self")); [exact (Copy E)|]. apply rbind_Ok in E as (m' & H1 & E). eapply grows_trans; [eapply grows_insert; exact H1|eapply IH; exact E].
    - apply rbind_Ok in E as ([r wr] & _ & E). cbv beta iota zeta in E. apply rbind_Ok in E as (m' & H1 & E). eapply grows_trans; [eapply grows_insert; exact H1|eapply IH; exact E].
  Qed.
  Lemma nil_ok m b : PList m b [] [] m b.
  Proof.
    split; [apply grows_refl|]. split; [apply keeps_refl|]. split; [reflexivity|]. intros A1 A2 F lp G G' E. injection E as <-. apply Sim_nil.
  Qed.
  Lemma cons_ok m b t c m1 b1 ts c' m2 b2 : PNode m b t c m1 b1 -> PList m1 b1 ts c' m2 b2 -> PList m b (t :: ts) (c ++ c') m2 b2.
  Proof.
    intros (G1 & K1 & O1 & S1) (G2 & K2 & O2 & S2). split; [eapply grows_trans; eassumption|]. split; [eapply keeps_trans; eassumption|].
    assert (HI : forall A1 A2 F G G', scoped_list (scoped_node A1 A2 F) G (t :: ts) = Some G' -> exists G1, scoped_node A1 A2 F G t = Some G1 /\ scoped_list (scoped_node A1 A2 F) G1 ts = Some G').
    { intros A1 A2 F G G' E. cbn [scoped_list] in E. destruct (scoped_node A1 A2 F G t) as [Gm|]; [|discriminate E]. cbn [obind] in E. eauto. }
    split.
    - intros A1 A2 F G G' E HO k Hk. destruct (HI _ _ _ _ _ E) as (Gm & E1 & E2). cbn [forallb] in HO. apply andb_prop in HO as [HO1 HO2].
      rewrite (O2 _ _ _ _ _ E2 HO2 k Hk). exact (O1 _ _ _ _ _ E1 HO1 k Hk).
    - intros A1 A2 F lp G G' E. destruct (HI _ _ _ _ _ E) as (Gm & E1 & E2). rewrite tops_cons. cbn [forallb]. eapply Sim_cons; [exact K1|apply S1; exact E1|apply S2; exact E2].
  Qed.
  Lemma declare_ok m b t c p m' : flushed inp m b c -> visit_target m false t = Ok (p, m') -> PNode m b (TLet t None) (c ++ [SDeclare p]) m' [].
  Proof.
    intros Fl V. split; [exact (proj1 (grows_target _ _ _ _ _ V))|]. split; [exact (keeps_target _ _ _ _ _ V)|]. split; [intros A1 A2 F G G' _; discriminate|].
    intros A1 A2 F lp G G' E. cbn [scoped_node] in E. destruct (_ && _ && _) eqn:HC; [|discriminate E]. injection E as <-.
    apply andb_prop in HC as [HC _]. apply andb_prop in HC as [H1 H2]. apply declare_sim; assumption.
  Qed.
  Lemma let_ok m b t e r (sh : bool) c b1 p m' : visit_expr_root inp m e = Ok r -> is_shadowing_variable m t = Ok sh ->
    (if sh then flushed inp m b c /\ b1 = [] else c = [] /\ b1 = b) -> visit_target m true t = Ok (p, m') ->
    PNode m b (TLet t (Some e)) (c ++ [let_stmt m sh t p r]) m' b1.
  Proof.
    intros VE SH FB V. split; [exact (proj1 (grows_target _ _ _ _ _ V))|]. split; [exact (keeps_target _ _ _ _ _ V)|]. split; [intros A1 A2 F G G' _; discriminate|].
    intros A1 A2 F lp G G' E. cbn [scoped_node] in E. destruct (_ && _ && _) eqn:HC; [|discriminate E]. injection E as <-.
    apply andb_prop in HC as [HC H3]. apply andb_prop in HC as [H1 H2]. apply andb_prop in H3 as [H3 H4]. apply let_sim; assumption.
  Qed.
  Theorem code_ok :
    (forall m b ts c m' b', cg_list inp m b ts c m' b' -> PList m b ts c m' b') /\
    (forall m b t c m' b', cg_node inp m b t c m' b' -> PNode m b t c m' b') /\
    (forall m bs rbs m', cg_branches inp m bs rbs m' -> PBranches w inp m bs rbs m') /\
    (forall m bs rbs m', cg_arms inp m bs rbs m' -> PArms w inp m bs rbs m').
  Proof.
    apply (cg_ind inp (fun m b ts c m' b' _ => PList m b ts c m' b') (fun m b t c m' b' _ => PNode m b t c m' b')
      (fun m bs rbs m' _ => PBranches w inp m bs rbs m') (fun m bs rbs m' _ => PArms w inp m bs rbs m')); intros.
    - apply nil_ok.
    - eapply cons_ok; eassumption.
    - split; [apply grows_refl|]. split; [apply keeps_refl|]. split; [reflexivity|]. intros A1 A2 F lp G G' E. injection E as <-. apply text_sim.
    - split; [apply grows_refl|]. split; [apply keeps_refl|]. split; [reflexivity|]. intros A1 A2 F lp G G' E. cbn [scoped_node] in E.
      destruct (scoped_expr F A2 G e) eqn:HE; [|discriminate E]. injection E as <-. apply expr_sim; assumption.
    - apply declare_ok; assumption.
    - eapply let_ok; eassumption.
    - eapply if_sim; eassumption.
    - eapply match_sim; eassumption.
    - eapply for_sim; eassumption.
    - eapply block_sim; eassumption.
    - eapply include_sim; eassumption.
    - eapply macro_sim; try eassumption. eapply bind_grows; eassumption.
    - eapply filter_sim; eassumption.
    - split; [apply grows_refl|]. split; [apply keeps_refl|]. split; [intros A1 A2 F G G' _; discriminate|]. intros A1 A2 F lp G G' E. injection E as <-.
      eapply jump_sim with (fl := Break); [assumption|reflexivity|reflexivity|discriminate].
    - split; [apply grows_refl|]. split; [apply keeps_refl|]. split; [intros A1 A2 F G G' _; discriminate|]. intros A1 A2 F lp G G' E. injection E as <-.
      eapply jump_sim with (fl := Continue); [assumption|reflexivity|reflexivity|discriminate].
    - apply branches_nil.
    - eapply branches_cons; eassumption.
    - apply arms_nil.
    - eapply arms_cons; eassumption.
  Qed.

  (** ** The whole template *)
  Lemma start_rel F : forallb good F = true -> Rel w [] [] F [] ch_empty [] [] [] None.
  Proof.
    intros HF. rewrite forallb_forall in HF. constructor.
    - intros k Hk. rewrite ch_get_empty in Hk. congruence.
    - intros x _ _. split; reflexivity.
    - intros x meta _ E. rewrite ch_get_empty in E. discriminate E.
    - intros x Hx. cbn in Hx. congruence.
    - reflexivity.
    - intros x Hx. split; [exact (HF x Hx)|reflexivity].
    - intros a [].
    - discriminate.
  Qed.
  Theorem render_list F ts c1 c2 m' b' : scoped F ts = true -> cg_list inp ch_empty [] ts c1 m' b' -> flushed inp m' b' c2 ->
    render w inp ts <> Unset -> run w (c1 ++ c2) = render w inp ts.
  Proof.
    intros HS HC Fl HU. apply andb_prop in HS as [HF HS]. pose proof (proj1 code_ok _ _ _ _ _ _ HC) as PL.
    destruct (PList_body w inp [] [] F None [] ch_empty ts c1 c2 m' b' PL Fl HS) as [G' BD]. specialize (BD [] [] [] (start_rel F HF)).
    unfold render, run in *. destruct (mean_list w (mean w inp None) ts [] []) as [[[[o te'] st'] fl]| |]; cbn [obnd] in *; [|rewrite BD; reflexivity|congruence].
    destruct o as [s|].
    - destruct BD as (re' & -> & _). cbn [obnd]. destruct fl; [reflexivity|congruence|congruence].
    - rewrite BD. cbn [obnd]. destruct fl; [reflexivity|congruence|congruence].
  Qed.
End Sim.

Theorem build_ok inp find fuel templates code z tns F w :
  build_template inp find fuel templates = GOk (code, z) -> f_block inp = None -> assemble inp find fuel templates = GOk tns ->
  scoped F tns = true -> world_ok w -> render w inp tns <> Unset -> run w code = render w inp tns.
Proof.
  intros EB HB EA HS wok HU. unfold build_template, assemble in *. destruct (build_contexts find templates) as [contexts| | |]; try discriminate EB. cbn [gbind] in *.
  destruct (get (f_path inp) contexts) as [ctx|]; [|discriminate EB]. rewrite HB in EB.
  assert (EH : exists her, (match c_blocks ctx, c_extends ctx with [], None => GOk None | _, _ => let* h := heritage_new fuel contexts ctx in GOk (Some h) end) = GOk her /\
    impl_template inp contexts find fuel her ctx = GOk (code, z)).
  { apply gbind_inv in EB as (her & E1 & E2). exists her. split; assumption. }
  destruct EH as (her & EH & EI). rewrite EH in EA. cbn [gbind] in EA. unfold impl_template in EI. cbv zeta in EA, EI.
  set (root := match her with Some h => h_root h | None => ctx end) in *.
  apply gbind_inv in EI as ([[code' z'] st'] & E1 & EI). assert (code' = code) as ->.
  { repeat (apply gbind_inv in EI as (? & _ & EI)). injection EI as -> _. reflexivity. }
  apply gbind_inv in EA as ([t wt] & E2 & EA). injection EA as <-.
  assert (AT : At (initial inp 2) ch_empty ws_init None []) by (constructor; cbn; rewrite ?HB; reflexivity).
  pose proof (expand_all inp contexts find fuel her root (c_nodes root) LTop _ _ _ _ _ _ _ _ AT E1) as HJ. cbn [top_level] in HJ. rewrite E2 in HJ.
  destruct HJ as [(x & Ex & c1 & c2 & m' & b' & -> & HC & Fl & _)|Bad].
  - injection Ex as <-. cbn [fst] in HC. eapply render_list; eassumption.
  - exfalso. specialize (Bad _ eq_refl). unfold badl in Bad. cbn [fst] in Bad. apply andb_prop in HS as [_ HS].
    rewrite (clean_closed t [] [] F []) in Bad; [discriminate Bad| |exact HS]. apply Forall_forall. intros n _. apply scoped_clean.
Qed.
