(** * How the variables of a template correspond to those of the generated code. *)
From Coq Require Import ZArith ZifyBool ZifyNat ZifyN.
From Verif Require Import Base Ws Ast Ident IdentFacts GenExpr Heritage Gen Sem RefSem RexprFacts FlushFacts Scoped SimExpr SimFacts GenSteps.
Local Open Scope N_scope.

(** The Rust name behind a shared name *)
Definition rn (a : str) : str := if str_eqb a (lit "loop") then lit "_loop_item" else norm a.
(** References that are no [&&] or [||] *)
Definition simple_ref (r : rexpr) : bool := match r with RName _ | RField _ _ | RGrp _ => true | _ => false end.

Section Rel.
  Variables (w : world) (inp : ginput).
  Notation lookup := (lookup w).

  Definition ref_names (A1 : list str) (r : rexpr) : Prop := forall n, In n (rnames r) -> n = lit "self" \/ exists a, In a A1 /\ n = rn a.
  Definition slot_rel (A1 A2 : list str) (G : vars) (te re : env w) (st : store w) (x : str) (meta : lmeta) : Prop :=
    match l_refs meta, get x G with
    | None, Some true => l_init meta = false /\ exists l, lookup te x = Some (Loc w l) /\ lookup re (norm x) = Some (Loc w l)
    | None, Some false => (l_init meta = true \/ In x A2) /\
        exists v s, lookup te x = Some (Val w v) /\ lookup re (norm x) = Some s /\ slot_value w st s = Done v
    | Some r, Some false => In x A2 /\ simple_ref r = true /\ normalize_text r = r /\ ref_names A1 r /\
        exists v, lookup te x = Some (Val w v) /\ reval w re st r = Done v
    | _, _ => False
    end.
  Record Rel (A1 A2 F : list str) (G : vars) (m : chain) (te re : env w) (st : store w) (lp : lpos) : Prop := {
    r_keys : forall k, ch_get m k <> None -> (exists x, good x = true /\ k = norm x) \/ (exists id, k = filter_block_name id);
    r_none : forall x, good x = true -> ch_get m (norm x) = None -> get x G = None /\ lookup te x = None;
    r_some : forall x meta, good x = true -> ch_get m (norm x) = Some meta -> slot_rel A1 A2 G te re st x meta;
    r_vars : forall x, get x G <> None -> good x = true;
    r_under : lookup te (lit "_") = None;
    r_fields : forall x, In x F -> good x = true /\ get x G = None;
    r_shared : forall a, In a A1 -> a = lit "loop" \/ good a = true;
    r_loop : forall i f l, lp = Some (i, f, l) -> lookup re (lit "_loop_item") = Some (Val w (w_item w i f l))
  }.

  Lemma good_self x : good x = true -> str_eqb x (lit "self") = false.
  Proof. intros H. apply str_eqb_neq. intros ->. discriminate H. Qed.
  Lemma norm_self x : good x = true -> str_eqb (norm x) (lit "self") = false.
  Proof. intros H. apply str_eqb_neq. apply norm_reserved; [exact H|]. left. reflexivity. Qed.
  Lemma norm_item x : good x = true -> norm x <> lit "_loop_item".
  Proof. intros H. apply norm_reserved; [exact H|]. do 4 right. left. reflexivity. Qed.
  Lemma rn_good a : good a = true -> rn a = norm a.
  Proof. intros H. unfold rn. rewrite (proj2 (str_eqb_neq _ _)); [reflexivity|]. intros ->. discriminate H. Qed.
  Lemma rn_fb a : a = lit "loop" \/ good a = true -> is_fb (rn a) = false.
  Proof. intros [->|H]; [reflexivity|]. rewrite rn_good by exact H. apply norm_fb. exact H. Qed.
  Lemma slot_known A1 A2 G te re st x meta : slot_rel A1 A2 G te re st x meta -> get x G <> None.
  Proof. unfold slot_rel. destruct (l_refs meta), (get x G); try discriminate; tauto. Qed.
  Section Facts.
    Variables (A1 A2 F : list str) (G : vars) (m : chain) (te re : env w) (st : store w) (lp : lpos).
    Hypothesis R : Rel A1 A2 F G m te re st lp.
    Lemma known_key x : get x G <> None -> exists meta, good x = true /\ ch_get m (norm x) = Some meta.
    Proof.
      intros H. pose proof (r_vars _ _ _ _ _ _ _ _ _ R x H) as Hg. destruct (ch_get m (norm x)) as [meta|] eqn:E; [eauto|].
      destruct (r_none _ _ _ _ _ _ _ _ _ R x Hg E). congruence.
    Qed.
    Lemma field_free x : In x F -> good x = true /\ ch_get m (norm x) = None /\ lookup te x = None.
    Proof.
      intros H. destruct (r_fields _ _ _ _ _ _ _ _ _ R x H) as [Hg HN]. split; [exact Hg|].
      destruct (ch_get m (norm x)) as [meta|] eqn:E.
      - exfalso. exact (slot_known _ _ _ _ _ _ _ _ (r_some _ _ _ _ _ _ _ _ _ R x meta Hg E) HN).
      - split; [reflexivity|]. apply (r_none _ _ _ _ _ _ _ _ _ R x Hg E).
    Qed.
    Lemma key_dot k : In 46 k -> ch_get m k = None.
    Proof.
      intros H. destruct (ch_get m k) eqn:E; [|reflexivity]. exfalso.
      destruct (r_keys _ _ _ _ _ _ _ _ _ R k) as [(x & Hx & ->)|(id & ->)]; [congruence|exact (norm_dot x Hx H)|].
      unfold filter_block_name in H. apply in_app_or in H as [H|H].
      - cbn in H. repeat (destruct H as [H|H]; [discriminate H|]). exact H.
      - pose proof (nat_str_digits id) as D. rewrite Forall_forall in D. apply D in H. lia.
    Qed.
    Lemma key_reserved y : In y reserved -> ch_get m y = None.
    Proof.
      intros H. destruct (ch_get m y) eqn:E; [|reflexivity]. exfalso.
      destruct (r_keys _ _ _ _ _ _ _ _ _ R y) as [(x & Hx & ->)|(id & ->)]; [congruence|exact (norm_reserved x _ Hx H eq_refl)|].
      exact (fb_reserved _ _ (fb_name_is id) H eq_refl).
    Qed.

    (** ** Expressions *)
    Hypothesis wok : world_ok w.
    Lemma visit_var_cases x : good x = true -> visit_var m x =
      match ch_get m (norm x) with
      | Some meta => match l_refs meta with Some r => normalize_text r | None => RName (norm x) end
      | None => RField self (norm x)
      end.
    Proof.
      intros H. unfold visit_var. rewrite (good_self x H). unfold ch_resolve_or_self, ch_resolve.
      destruct (ch_get m (norm x)) as [meta|]; [|reflexivity]. destruct (l_refs meta); [reflexivity|]. cbn [normalize_text]. rewrite normalize_idem. reflexivity.
    Qed.
    Lemma slot_read x v s : good x = true -> lookup re (norm x) = Some s -> slot_value w st s = Done v -> reval w re st (RName (norm x)) = Done v.
    Proof. intros Hg E1 E2. cbn [reval]. rewrite (norm_self x Hg). unfold read. rewrite E1. exact E2. Qed.
    Lemma rel_var x : good x = true -> In x F \/ get x G <> None -> var_agree w m te re st x.
    Proof.
      intros Hg Hx HU. unfold var_value in *. rewrite visit_var_cases by exact Hg. destruct Hx as [Hx|Hx].
      - destruct (field_free x Hx) as (_ & E1 & E2). rewrite E1, E2. cbn [reval self obnd]. rewrite unraw_norm; [reflexivity|]. apply good_inv in Hg. tauto.
      - destruct (known_key x Hx) as (meta & _ & E). rewrite E. pose proof (r_some _ _ _ _ _ _ _ _ _ R x meta Hg E) as S. unfold slot_rel in S.
        destruct (l_refs meta) as [r|], (get x G) as [[]|]; try tauto.
        + destruct S as (_ & _ & S1 & _ & v & S2 & S3). rewrite S1, S2. exact S3.
        + destruct S as (_ & l & S1 & S2). rewrite S1. cbn [reval]. rewrite (norm_self x Hg). unfold read. rewrite S2. reflexivity.
        + destruct S as (_ & v & s & S1 & S2 & S3). rewrite S1. cbn [slot_value]. eapply slot_read; eassumption.
    Qed.
    Lemma rel_call x : good x = true -> In x F \/ get x G <> None -> ~ In x A2 -> call_agree w m te re st x.
    Proof.
      intros Hg Hx HA. unfold call_agree, callee, ch_resolve. pose proof (rel_var x Hg Hx) as HV. unfold var_agree in HV. rewrite (visit_var_cases x Hg) in HV.
      destruct (ch_get m (norm x)) as [meta|] eqn:E; [|split; [reflexivity|exact HV]].
      pose proof (r_some _ _ _ _ _ _ _ _ _ R x meta Hg E) as S. unfold slot_rel in S.
      destruct (l_refs meta) as [r|]; [destruct (get x G) as [[]|]; tauto|]. split; [reflexivity|exact HV].
    Qed.
    Lemma scoped_inv e : scoped_expr F A2 G e = true -> plain e = true /\
      (forall x, In x (fv e) -> x <> lit "loop" -> good x = true /\ (In x F \/ get x G <> None)) /\
      (forall x, In x (called e) -> In x A2 -> False).
    Proof.
      unfold scoped_expr. intros H. apply andb_prop in H as [H H3]. apply andb_prop in H as [H1 H2]. rewrite forallb_forall in H2, H3.
      split; [exact H1|]. split.
      - intros x Hx HL. specialize (H2 x Hx). rewrite (proj2 (str_eqb_neq _ _) HL) in H2. cbn [orb] in H2. apply orb_prop in H2 as [H2|H2].
        + apply mem_str_In in H2. split; [apply (r_fields _ _ _ _ _ _ _ _ _ R x H2)|left; exact H2].
        + unfold known in H2. assert (N : get x G <> None) by (intros N; rewrite N in H2; discriminate H2). split; [exact (r_vars _ _ _ _ _ _ _ _ _ R x N)|right; exact N].
      - intros x Hx HA. specialize (H3 x Hx). apply mem_str_In in HA. rewrite HA in H3. discriminate H3.
    Qed.
    Lemma called_fv e x : plain e = true -> In x (called e) -> In x (fv e) /\ x <> lit "loop".
    Proof.
      revert x. induction e using expr_ind'; intros y Hp Hy; cbn [called] in Hy; cbn [plain] in Hp; try (destruct Hy; fail).
      1, 4, 10 : cbn [fv]; induction H as [|a l Ha Hl IH]; [destruct Hy|]; cbn [forallb] in Hp; apply andb_prop in Hp as [P1 P2];
        apply in_app_or in Hy as [Hy|Hy]; [destruct (Ha y P1 Hy)|destruct (IH P2 Hy)]; split; auto; apply in_or_app; auto.
      - apply andb_prop in Hp as [_ Hp]. destruct (var_loop e) eqn:EL; [destruct e; try discriminate EL; destruct Hy|]. exact (IHe y Hp Hy).
      - apply andb_prop in Hp as [P1 P2]. cbn [fv]. apply in_app_or in Hy as [Hy|Hy]; [destruct (IHe1 y P1 Hy)|destruct (IHe2 y P2 Hy)]; split; auto; apply in_or_app; auto.
      - exact (IHe y Hp Hy).
      - exact (IHe y Hp Hy).
      - apply andb_prop in Hp as [P1 P2]. cbn [fv]. apply in_app_or in Hy as [Hy|Hy]; [destruct (IHe1 y P1 Hy)|destruct (IHe2 y P2 Hy)]; split; auto; apply in_or_app; auto.
      - apply andb_prop in Hp as [P1 P2]. cbn [fv]. apply in_app_or in Hy as [Hy|Hy].
        + destruct l as [a|]; [|destruct Hy]. destruct (H y P1 Hy). split; auto. apply in_or_app; auto.
        + destruct r as [a|]; [|destruct Hy]. destruct (H0 y P2 Hy). split; auto. apply in_or_app; auto.
      - exact (IHe y Hp Hy).
      - apply andb_prop in Hp as [P1 P2]. cbn [fv]. apply in_app_or in Hy as [Hy|Hy].
        + assert (C : (exists z, e = Var z) \/ (plain e = true /\ In y (called e))).
          { destruct e; try (right; split; [exact P1|exact Hy]); [left; eauto|discriminate P1]. }
          destruct C as [(z & ->)|(C1 & C2)].
          * destruct Hy as [<-|[]]. cbn [fv]. rewrite (good_self z P1). split; [left; reflexivity|]. intros ->. discriminate P1.
          * destruct (IHe y C1 C2). split; auto. apply in_or_app; auto.
        + assert (In y (fvs l) /\ y <> lit "loop"); [|split; [apply in_or_app; right; tauto|tauto]]. clear IHe P1.
          induction H as [|a l Ha Hl IH]; [destruct Hy|]; cbn [forallb] in P2; apply andb_prop in P2 as [P1 P2].
          cbn [fvs]. apply in_app_or in Hy as [Hy|Hy]; [destruct (Ha y P1 Hy)|destruct (IH P2 Hy)]; split; auto; apply in_or_app; auto.
      - exact (IHe y Hp Hy).
    Qed.
    Theorem rel_expr e gen : scoped_expr F A2 G e = true -> agree w inp m te re st lp gen e.
    Proof.
      intros H. destruct (scoped_inv e H) as (Hp & Hf & Hc).
      apply visit_teval; [exact wok|exact (r_loop _ _ _ _ _ _ _ _ _ R)|exact Hp| |].
      - intros x Hx HL. destruct (Hf x Hx HL). apply rel_var; assumption.
      - intros x Hx. destruct (called_fv e x Hp Hx) as [Hx1 HL]. destruct (Hf x Hx1 HL). apply rel_call; [assumption|assumption|]. exact (Hc x Hx).
    Qed.
    Lemma rel_root e r : scoped_expr F A2 G e = true -> visit_expr_root inp m e = Ok r -> teval w inp te st lp Unset e <> Unset ->
      reval w re st r = teval w inp te st lp Unset e.
    Proof. unfold visit_expr_root. intros H E. apply rbind_Ok in E as ((r' & wr) & E & E'). injection E' as <-. eapply rel_expr; eassumption. Qed.
  End Facts.

  (** ** Changing the variables *)
  Lemma mono_refl st : mono w st st.
  Proof. intros l v H. exact H. Qed.
  Lemma mono_trans a b c : mono w a b -> mono w b c -> mono w a c.
  Proof. intros H1 H2 l v H. apply H2, H1, H. Qed.
  Lemma in_str_dec (x : str) l : {In x l} + {~ In x l}.
  Proof. destruct (mem_str x l) eqn:E; [left; apply mem_str_In; exact E|right; intros H; apply mem_str_In in H; congruence]. Qed.
  Lemma norm_notin x xs : good x = true -> (forall y, In y xs -> good y = true) -> ~ In x xs -> ~ In (norm x) (map norm xs).
  Proof. intros Hx Hxs Hn H. apply in_map_iff in H as (y & E & Hy). apply Hn. rewrite <- (good_inj y x) by auto. exact Hy. Qed.
  Lemma slot_stable st st' s v : mono w st st' -> slot_value w st s = Done v -> slot_value w st' s = Done v.
  Proof. intros M. destruct s as [u|l]; cbn [slot_value]; [auto|]. destruct (nth_error st l) as [[u|]|] eqn:E; try discriminate. rewrite (M _ _ E). auto. Qed.
  Lemma reval_mono re re' st st' r v : mono w st st' -> (forall n, In n (rnames r) -> n = lit "self" \/ lookup re' n = lookup re n) ->
    reval w re st r = Done v -> reval w re' st' r = Done v.
  Proof. intros M H E. rewrite (reval_stable w re re' st st' M r); [exact E|exact H|congruence]. Qed.
  Lemma slot_rel_mono A1 A1' A2 A2' G G' te te' re re' st st' x meta : incl A1 A1' -> incl A2 A2' -> mono w st st' ->
    get x G' = get x G -> lookup te' x = lookup te x -> (l_refs meta = None -> lookup re' (norm x) = lookup re (norm x)) ->
    (forall a, In a A1 -> lookup re' (rn a) = lookup re (rn a)) ->
    slot_rel A1 A2 G te re st x meta -> slot_rel A1' A2' G' te' re' st' x meta.
  Proof.
    intros I1 I2 M EG ET ER ES. unfold slot_rel. rewrite EG, ET. destruct (l_refs meta) as [r|], (get x G) as [[]|]; try tauto.
    - intros (H1 & H2 & H3 & H4 & v & H5 & H6). split; [auto|]. split; [exact H2|]. split; [exact H3|]. split.
      + intros n Hn. destruct (H4 n Hn) as [->|(a & Ha & ->)]; [left; reflexivity|right; exists a; auto].
      + exists v. split; [exact H5|]. eapply reval_mono; [exact M| |exact H6]. intros n Hn. destruct (H4 n Hn) as [->|(a & Ha & ->)]; [left; reflexivity|right; apply ES; exact Ha].
    - rewrite ER by reflexivity. tauto.
    - rewrite ER by reflexivity. intros (H1 & v & s & H2 & H3 & H4). split; [intuition auto|]. exists v, s. split; [exact H2|]. split; [exact H3|]. eapply slot_stable; eassumption.
  Qed.
  Lemma Rel_over A1 A1' A2 A2' F F' G G' m m' te te' re re' st st' lp xs :
    Rel A1 A2 F G m te re st lp -> incl A1 A1' -> (forall a, In a A1' -> a = lit "loop" \/ good a = true) -> incl A2 A2' ->
    (forall x, In x xs -> good x = true) -> (forall k, ~ In k (map norm xs) -> ch_get m' k = ch_get m k) ->
    (forall x, ~ In x xs -> get x G' = get x G) -> (forall x, ~ In x xs -> lookup te' x = lookup te x) ->
    (forall x meta, good x = true -> ~ In x xs -> ch_get m (norm x) = Some meta -> l_refs meta = None -> lookup re' (norm x) = lookup re (norm x)) ->
    (forall a, In a A1 -> lookup re' (rn a) = lookup re (rn a)) ->
    lookup re' (lit "_loop_item") = lookup re (lit "_loop_item") -> mono w st st' ->
    (forall x, In x xs -> exists meta, ch_get m' (norm x) = Some meta /\ slot_rel A1' A2' G' te' re' st' x meta) ->
    (forall x, In x F' -> In x F /\ ~ In x xs) -> Rel A1' A2' F' G' m' te' re' st' lp.
  Proof.
    intros R I1 HA1 I2 Hxs HM HG HT HR HS HL M HN HF.
    constructor.
    - intros k Hk. destruct (in_str_dec k (map norm xs)) as [D|D].
      + apply in_map_iff in D as (x & <- & Hx). left. eauto.
      + rewrite HM in Hk by exact D. exact (r_keys _ _ _ _ _ _ _ _ _ R k Hk).
    - intros x Hg Hx. destruct (in_str_dec x xs) as [D|D]; [destruct (HN x D) as (meta & E & _); congruence|].
      rewrite HG, HT by exact D. rewrite HM in Hx by (apply norm_notin; assumption). exact (r_none _ _ _ _ _ _ _ _ _ R x Hg Hx).
    - intros x meta Hg Hx. destruct (in_str_dec x xs) as [D|D]; [destruct (HN x D) as (meta' & E & S); congruence|].
      rewrite HM in Hx by (apply norm_notin; assumption). eapply slot_rel_mono; [exact I1|exact I2|exact M|apply HG; exact D|apply HT; exact D|eapply HR; eassumption|exact HS|].
      exact (r_some _ _ _ _ _ _ _ _ _ R x meta Hg Hx).
    - intros x Hx. destruct (in_str_dec x xs) as [D|D]; [auto|]. rewrite HG in Hx by exact D. exact (r_vars _ _ _ _ _ _ _ _ _ R x Hx).
    - rewrite HT; [exact (r_under _ _ _ _ _ _ _ _ _ R)|]. intros D. apply Hxs in D. discriminate D.
    - intros x Hx. destruct (HF x Hx) as [H1 H2]. rewrite HG by exact H2. exact (r_fields _ _ _ _ _ _ _ _ _ R x H1).
    - exact HA1.
    - intros i f l E. rewrite HL. exact (r_loop _ _ _ _ _ _ _ _ _ R i f l E).
  Qed.
  (** Names the generated code may still read *)
  Definition live (A1 : list str) (m : chain) (n : str) : Prop :=
    n = lit "_loop_item" \/ ch_get m n <> None \/ exists a, In a A1 /\ n = rn a.
  Lemma Rel_stable A1 A2 F G m m' te re re' st st' lp :
    Rel A1 A2 F G m te re st lp -> (forall k, is_fb k = false -> ch_get m' k = ch_get m k) ->
    (forall k, ch_get m' k <> None -> ch_get m k <> None \/ exists id, k = filter_block_name id) ->
    (forall n, is_fb n = false -> live A1 m n -> lookup re' n = lookup re n) -> mono w st st' -> Rel A1 A2 F G m' te re' st' lp.
  Proof.
    intros R HM HK HR M.
    assert (HN : forall x, good x = true -> ch_get m' (norm x) = ch_get m (norm x)) by (intros x Hx; apply HM, norm_fb, Hx).
    constructor.
    - intros k Hk. destruct (HK k Hk) as [H|H]; [exact (r_keys _ _ _ _ _ _ _ _ _ R k H)|right; exact H].
    - intros x Hg Hx. rewrite HN in Hx by exact Hg. exact (r_none _ _ _ _ _ _ _ _ _ R x Hg Hx).
    - intros x meta Hg Hx. rewrite HN in Hx by exact Hg.
      eapply slot_rel_mono; [apply incl_refl|apply incl_refl|exact M|reflexivity|reflexivity| | |exact (r_some _ _ _ _ _ _ _ _ _ R x meta Hg Hx)].
      + intros _. apply HR; [apply norm_fb; exact Hg|]. right. left. congruence.
      + intros a Ha. apply HR; [apply rn_fb; exact (r_shared _ _ _ _ _ _ _ _ _ R a Ha)|]. right. right. eauto.
    - exact (r_vars _ _ _ _ _ _ _ _ _ R).
    - exact (r_under _ _ _ _ _ _ _ _ _ R).
    - exact (r_fields _ _ _ _ _ _ _ _ _ R).
    - exact (r_shared _ _ _ _ _ _ _ _ _ R).
    - intros i f l E. rewrite HR; [exact (r_loop _ _ _ _ _ _ _ _ _ R i f l E)|reflexivity|left; reflexivity].
  Qed.
  Lemma Rel_chain A1 A2 F G m m' te re st lp : (forall k, ch_get m' k = ch_get m k) -> Rel A1 A2 F G m te re st lp -> Rel A1 A2 F G m' te re st lp.
  Proof. intros H R. eapply Rel_stable; [exact R|intros; apply H|intros k; rewrite H; auto|reflexivity|apply mono_refl]. Qed.
  Lemma Rel_store A1 A2 F G m te re st st' lp : mono w st st' -> Rel A1 A2 F G m te re st lp -> Rel A1 A2 F G m te re st' lp.
  Proof. intros H R. eapply Rel_stable; [exact R|reflexivity|auto|reflexivity|exact H]. Qed.
  Lemma Rel_loop A1 A2 F G m te re st lp i f l : ~ In (lit "loop") A1 -> Rel A1 A2 F G m te re st lp ->
    Rel A1 A2 F G m te ((lit "_loop_item", Val w (w_item w i f l)) :: re) st (Some (i, f, l)).
  Proof.
    intros HA R.
    assert (HL : forall n, n <> lit "_loop_item" -> lookup ((lit "_loop_item", Val w (w_item w i f l)) :: re) n = lookup re n).
    { intros n Hn. unfold lookup, Sem.lookup. cbn [get]. rewrite (proj2 (str_eqb_neq _ _) Hn). reflexivity. }
    constructor.
    - exact (r_keys _ _ _ _ _ _ _ _ _ R).
    - exact (r_none _ _ _ _ _ _ _ _ _ R).
    - intros x meta Hg Hx. eapply slot_rel_mono; [apply incl_refl|apply incl_refl|apply mono_refl|reflexivity|reflexivity| | |exact (r_some _ _ _ _ _ _ _ _ _ R x meta Hg Hx)].
      + intros _. apply HL. apply norm_item. exact Hg.
      + intros a Ha. apply HL. destruct (r_shared _ _ _ _ _ _ _ _ _ R a Ha) as [->|Hga]; [contradiction|]. rewrite rn_good by exact Hga. apply norm_item. exact Hga.
    - exact (r_vars _ _ _ _ _ _ _ _ _ R).
    - exact (r_under _ _ _ _ _ _ _ _ _ R).
    - exact (r_fields _ _ _ _ _ _ _ _ _ R).
    - exact (r_shared _ _ _ _ _ _ _ _ _ R).
    - intros i' f' l' E. injection E as <- <- <-. unfold lookup, Sem.lookup. cbn [get]. rewrite str_eqb_refl. reflexivity.
  Qed.
  (** Binding the variables of a pattern *)
  Lemma minus_In x F xs : In x (minus F xs) <-> In x F /\ ~ In x xs.
  Proof. unfold minus. rewrite filter_In, negb_true_iff. split; intros [H1 H2]; split; auto; [intros H; apply mem_str_In in H; congruence|].
    destruct (mem_str x xs) eqn:E; [|reflexivity]. apply mem_str_In in E. contradiction. Qed.
  Lemma bindable_inv A1 A2 t : scoped_target A1 A2 t = true -> plain_target t = true /\ (forall x, In x (pattern_names t) -> good x = true /\ ~ In x A1 /\ ~ In x A2).
  Proof.
    unfold scoped_target. intros H. apply andb_prop in H as [H1 H2]. split; [exact H1|]. rewrite forallb_forall in H2. intros x Hx. apply H2 in Hx.
    unfold bindable in Hx. apply andb_prop in Hx as [Hx H4]. apply andb_prop in Hx as [Hx H3]. rewrite negb_true_iff in H3, H4.
    split; [exact Hx|]. split; intros H; apply mem_str_In in H; congruence.
  Qed.
  Lemma target_get m m' b t p : visit_target m b t = Ok (p, m') -> p = norm_target t /\
    (forall k, ch_get m' k = if mem_str k (map norm (pattern_names t)) then Some (if b then m_initialized else m_default) else ch_get m k).
  Proof.
    intros H. apply grows_target in H as (_ & -> & H). split; [reflexivity|]. intros k. rewrite (ch_get_insert_all _ _ _ _ _ H), target_names_norm. reflexivity.
  Qed.
  Lemma Rel_bind A1 A2 F G m m1 te re st lp t p v bs :
    Rel A1 A2 F G m te re st lp -> scoped_target A1 A2 t = true -> visit_target m true t = Ok (p, m1) -> pmatch w t v = Some bs ->
    Rel A1 A2 (minus F (pattern_names t)) (bind_vars false (pattern_names t) G) m1 (bind_vals w bs te) (bind_vals w (map norm_fst bs) re) st lp.
  Proof.
    intros R HT HV HP. destruct (bindable_inv _ _ _ HT) as [Hp Hb]. apply target_get in HV as [-> HM].
    pose proof (pmatch_names w t Hp v bs HP) as HN. set (xs := pattern_names t) in *.
    assert (HG : Forall (fun x => good (fst x) = true) bs).
    { apply Forall_forall. intros y Hy. apply Hb. apply HN. apply in_map. exact Hy. }
    assert (HK : map fst (map norm_fst bs) = map norm (map fst bs)) by (rewrite !map_map; reflexivity).
    assert (HRE : forall n, ~ In n (map norm xs) -> lookup (bind_vals w (map norm_fst bs) re) n = lookup re n).
    { intros n Hn. apply lookup_bind_other. rewrite HK. intros H. apply Hn. apply in_map_iff in H as (y & <- & Hy). apply in_map. apply HN. exact Hy. }
    eapply Rel_over with (xs := xs); [exact R|apply incl_refl|exact (r_shared _ _ _ _ _ _ _ _ _ R)|apply incl_refl|..].
    - intros x Hx. apply Hb. exact Hx.
    - intros k Hk. rewrite HM. destruct (mem_str k (map norm xs)) eqn:E; [apply mem_str_In in E; contradiction|reflexivity].
    - intros x Hx. rewrite get_bind_vars. destruct (mem_str x xs) eqn:E; [apply mem_str_In in E; contradiction|reflexivity].
    - intros x Hx. apply lookup_bind_other. rewrite HN. exact Hx.
    - intros x meta Hg Hx _ _. apply HRE. apply norm_notin; [exact Hg| |exact Hx]. intros y Hy. apply Hb. exact Hy.
    - intros a Ha. apply HRE. intros H. apply in_map_iff in H as (y & E & Hy). destruct (Hb y Hy) as (G1 & G2 & _).
      destruct (r_shared _ _ _ _ _ _ _ _ _ R a Ha) as [->|Hga]; [exact (norm_item y G1 E)|]. rewrite rn_good in E by exact Hga. apply G2. rewrite (good_inj y a G1 Hga E). exact Ha.
    - apply HRE. intros H. apply in_map_iff in H as (y & E & Hy). exact (norm_item y (proj1 (Hb y Hy)) E).
    - apply mono_refl.
    - intros x Hx. exists m_initialized. rewrite HM. rewrite (proj2 (mem_str_In _ _) (in_map norm _ _ Hx)). split; [reflexivity|].
      unfold slot_rel. cbn [l_refs m_initialized l_init]. rewrite get_bind_vars, (proj2 (mem_str_In _ _) Hx). split; [left; reflexivity|].
      destruct (lookup_bind_in w bs te re x HG) as (u & U1 & U2 & _); [apply HN; exact Hx|]. exists u, (Val w u). auto.
    - intros x Hx. apply minus_In in Hx. exact Hx.
  Qed.
  Lemma minus_id F xs : (forall x, In x xs -> ~ In x F) -> minus F xs = F.
  Proof.
    intros H. unfold minus. induction F as [|y F IH]; [reflexivity|]. cbn [filter]. destruct (mem_str y xs) eqn:E.
    - apply mem_str_In in E. exfalso. apply (H y E). left. reflexivity.
    - cbn [negb]. rewrite IH; [reflexivity|]. intros x Hx Hi. apply (H x Hx). right. exact Hi.
  Qed.
End Rel.
