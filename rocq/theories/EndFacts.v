(** * Facts behind Prop_End.v *)
From Verif Require Import Base Ws Ast Ident IdentFacts GenExpr Heritage Gen HeritageSpec HeritageFacts RexprFacts PanicTop FuelFacts EndSpec.
From Coq Require Import Lia Relation_Operators.
Local Open Scope N_scope.

(** ** A name for a filter block is found in time. *)
Fixpoint ch_keys (m : chain) : list str := match m with Chain p ss => map fst (concat ss) ++ match p with Some m' => ch_keys m' | None => [] end end.
Lemma ch_keys_length : forall m, length (ch_keys m) = chain_size m.
Proof.
  fix IH 1. intros [p ss]. cbn [ch_keys chain_size]. rewrite app_length, map_length. destruct p as [m'|]; [rewrite (IH m')|]; reflexivity.
Qed.
Lemma scope_key k s v : lscope_get k s = Some v -> In k (map fst s).
Proof.
  induction s as [|[k' v'] s IH]; cbn [lscope_get map fst]; [discriminate|]. destruct (str_eqb k k') eqn:E; [|right; auto].
  apply str_eqb_eq in E as ->. left. reflexivity.
Qed.
Lemma lfind_key k ss v : lfind k ss = Some v -> In k (map fst (concat ss)).
Proof.
  induction ss as [|s ss IH]; cbn [lfind concat]; [discriminate|]. rewrite map_app, in_app_iff. destruct (lscope_get k s) eqn:E; [|right; auto].
  intros _. left. eapply scope_key, E.
Qed.
Lemma ch_get_key : forall m k v, ch_get m k = Some v -> In k (ch_keys m).
Proof.
  fix IH 1. intros [p ss] k v. cbn [ch_get ch_keys]. rewrite in_app_iff. destruct (lfind k ss) eqn:E; [left; eapply lfind_key, E|].
  destruct p as [m'|]; [right; eapply IH; eassumption|discriminate].
Qed.
Lemma fresh_run : forall fuel m id, fresh_filter_name fuel m id = GFuel -> forall i, (i <= fuel)%nat -> exists v, ch_get m (filter_block_name (id + i)) = Some v.
Proof.
  induction fuel as [|f IH]; intros m id E i L; cbn [fresh_filter_name] in E; destruct (ch_get m (filter_block_name id)) as [v|] eqn:G; try discriminate E.
  - replace (id + i)%nat with id by lia. eauto.
  - destruct i as [|i]; [rewrite Nat.add_0_r; eauto|]. replace (id + S i)%nat with (S id + i)%nat by lia. apply (IH m (S id) E). lia.
Qed.
Lemma filter_name_inj i j : filter_block_name i = filter_block_name j -> i = j.
Proof. unfold filter_block_name. intros H. apply app_inv_head in H. apply nat_str_inj. exact H. Qed.
Theorem fresh_ends m : fresh_filter_name (chain_size m) m O <> GFuel.
Proof.
  intros E. pose proof (fresh_run _ _ _ E) as H. cbn [Nat.add] in H.
  assert (I : incl (map filter_block_name (seq 0 (S (chain_size m)))) (ch_keys m)).
  { intros k Hk. apply in_map_iff in Hk as (i & <- & Hi). apply in_seq in Hi. destruct (H i) as [v Hv]; [lia|]. eapply ch_get_key, Hv. }
  apply NoDup_incl_length in I.
  - rewrite map_length, seq_length, ch_keys_length in I. lia.
  - apply FinFun.Injective_map_NoDup; [exact filter_name_inj|apply seq_NoDup].
Qed.

(** ** Lines of parents are no longer than there are files. *)
Lemma get_in {A} k (l : list (str * A)) v : get k l = Some v -> In (k, v) l.
Proof.
  induction l as [|[k' v'] l IH]; cbn [get]; [discriminate|]. destruct (str_eqb k k') eqn:E; [|right; auto].
  apply str_eqb_eq in E as ->. intros [= ->]. left. reflexivity.
Qed.
Lemma lineage_tails contexts c l : lineage contexts c l -> forall x, In x (tl l) -> exists p l', get p contexts = Some x /\ lineage contexts x l' /\ (length l' < length l)%nat.
Proof.
  induction 1 as [c E|c p c' l E G L IH]; intros x Hx; [destruct Hx|]. cbn [tl] in Hx.
  inversion L as [? E'|? p' c'' l'' E' G' L']; subst.
  - destruct Hx as [<-|[]]. exists p, [c']. repeat split; auto.
  - destruct Hx as [<-|Hx]; [exists p, (c' :: l''); repeat split; auto|]. destruct (IH x Hx) as (q & l1 & A & B & C). exists q, l1. repeat split; auto. cbn in *. lia.
Qed.
Lemma lineage_distinct contexts c l : lineage contexts c l -> NoDup l.
Proof.
  intros H. assert (K := H). induction H as [c E|c p c' l E G L IH]; [repeat constructor; intros []|].
  constructor; [|apply IH, L]. intros Hc. destruct (lineage_tails _ _ _ K c Hc) as (q & l' & A & B & C). rewrite (lineage_det _ _ _ _ B K) in C. lia.
Qed.
Lemma lineage_short contexts c l : lineage contexts c l -> (length l <= S (length contexts))%nat.
Proof.
  intros H. pose proof (lineage_distinct _ _ _ H) as D. assert (I : incl (tl l) (map snd contexts)).
  { intros x Hx. destruct (lineage_tails _ _ _ H x Hx) as (p & l' & A & _). apply get_in in A. apply (in_map snd) in A. exact A. }
  destruct l as [|c0 l]; [cbn; lia|]. cbn [tl length] in *. inversion D; subst. apply NoDup_incl_length in I; [|assumption]. rewrite map_length in I. lia.
Qed.
Lemma lineage_merge contexts ctx c l : lineage contexts c l -> exists l', lineage contexts (merge_context ctx c) l'.
Proof.
  intros H. inversion H as [? E|? p c' l' E G L]; subst.
  - exists [merge_context ctx c]. constructor. exact E.
  - exists (merge_context ctx c :: l'). econstructor; [exact E|exact G|exact L].
Qed.
Lemma heritage_ends contexts fuel c : (length contexts <= fuel)%nat -> (exists l, lineage contexts c l) -> exists h, heritage_new fuel contexts c = GOk h.
Proof. intros F [l L]. apply (heritage_new_ok contexts c l); [exact L|]. pose proof (lineage_short _ _ _ L). lia. Qed.

(** ** Outcomes.  With [fuel] true running out of fuel is an allowed outcome. *)
Definition gd {A} (fuel : bool) (P : A -> Prop) (r : gres A) : Prop :=
  match r with GOk a => P a | GFuel => fuel = true | _ => True end.
Lemma gd_bind {A B} F (P : A -> Prop) (Q : B -> Prop) x f : gd F P x -> (forall a, P a -> gd F Q (f a)) -> gd F Q (gbind x f).
Proof. destruct x; cbn; auto. Qed.
Lemma gd_res {A} F (r : res A) : gd F (fun _ => True) (of_res r).
Proof. destruct r; cbn; auto. Qed.
Lemma gd_imp {A} F (P Q : A -> Prop) x : gd F P x -> (forall a, P a -> Q a) -> gd F Q x.
Proof. destruct x; cbn; auto. Qed.

Section Ends.
  Variables (inp : ginput) (contexts : list (str * context)) (find : str -> str -> res str).
  Variable F : bool.
  Notation out3 sup := (fun r : gen => s_super (snd r) = sup).
  Lemma sup_push ws st : s_super (push ws st) = s_super st.
  Proof. unfold push. destruct (s_discard st); reflexivity. Qed.
  Lemma sup_flush l st : s_super (do_flush_ws inp l st) = s_super st.
  Proof. unfold do_flush_ws. destruct (flush_ws _ _ _). unfold push_lits. rewrite sup_push. reflexivity. Qed.
  Lemma sup_ws w st : s_super (do_handle_ws inp w st) = s_super st.
  Proof. unfold do_handle_ws, do_prepare_ws. apply (sup_flush (ws_l w) st). Qed.
  Lemma sup_open st : s_super (open_brace st) = s_super st.
  Proof. unfold open_brace. destruct (o_discard st); reflexivity. Qed.
  Lemma gd_line st : gd F (fun _ => True) (line st).
  Proof. unfold line. destruct (o_discard st); [exact I|]. destruct (64 <=? o_indent st); exact I. Qed.
  Lemma gd_dedent st : gd F (fun s => s_super s = s_super st) (dedent st).
  Proof. unfold dedent. destruct (o_indent st =? 0); [exact I|]. reflexivity. Qed.
  Lemma gd_close st : gd F (fun s => s_super s = s_super st) (close_brace st).
  Proof.
    unfold close_brace. destruct (o_discard st); [reflexivity|]. eapply gd_bind; [apply gd_dedent|]. intros s Hs. eapply gd_bind; [apply gd_line|].
    intros _ _. exact Hs.
  Qed.
  Lemma gd_pop st : gd F (fun s => s_super s = s_super st) (pop_locals st).
  Proof. unfold pop_locals. eapply gd_bind; [apply gd_res|]. intros; reflexivity. Qed.
  Lemma gd_write st : gd F (out3 (s_super st)) (write_buf_writable inp st).
  Proof.
    unfold write_buf_writable. eapply gd_bind; [apply gd_res|]. intros [[z ps] nm] _. destruct ps.
    - reflexivity.
    - eapply gd_bind; [apply gd_line|]. reflexivity.
    - destruct (63 <=? o_indent st); [exact I|]. eapply gd_bind; [apply gd_line|]. reflexivity.
  Qed.
  Lemma gd_lit l st : gd F (fun s => s_super s = s_super st) (do_visit_lit l st).
  Proof. unfold do_visit_lit. destruct (visit_lit l (s_ws st)) as [[o w]|]; [|exact I]. cbn. unfold push_lits. rewrite sup_push. reflexivity. Qed.
  Lemma gd_let w var val st : gd F (out3 (s_super st)) (write_let inp w var val st).
  Proof.
    unfold write_let. destruct val as [e|].
    - eapply gd_bind; [apply gd_res|]. intros r _. eapply gd_bind; [apply gd_res|]. intros sh _.
      eapply (gd_bind F (out3 (s_super st))).
      + destruct sh; [eapply gd_imp; [apply gd_write|]; cbn beta; intros ? ->|cbn]; apply sup_ws.
      + intros [[c z] s] Hs. eapply gd_bind; [apply gd_line|]. intros _ _. eapply gd_bind; [apply gd_res|]. intros [p m] _. exact Hs.
    - eapply gd_bind; [apply gd_write|]. intros [[c z] s] Hs. eapply gd_bind; [apply gd_line|]. intros _ _. eapply gd_bind; [apply gd_res|]. intros [p m] _.
      cbn in *. rewrite Hs. apply sup_ws.
  Qed.
  Lemma gd_test first t st : gd F (fun r => s_super (snd r) = s_super st) (if_test inp first t st).
  Proof.
    unfold if_test. destruct t as [t|].
    - eapply (gd_bind F (fun s => s_super s = s_super st)); [destruct first; [reflexivity|apply gd_dedent]|]. intros s Hs.
      eapply gd_bind; [apply gd_line|]. intros _ _.
      assert (D : forall p e, gd F (fun r : rtest * gst => s_super (snd r) = s_super st)
        (let* e' := of_res (visit_expr_root inp (s_locals s) e) in let* (p', m) := of_res (visit_target (s_locals s) true p) in GOk (RIfLet p' e', set_locals m s))).
      { intros p e. eapply gd_bind; [apply gd_res|]. intros e' _. eapply gd_bind; [apply gd_res|]. intros [p' m] _. exact Hs. }
      destruct (ct_target t) as [p|].
      + destruct (ct_expr t); try apply D. destruct (str_eqb op (lit "||") || str_eqb op (lit "&&")); [|apply D].
        eapply gd_bind; [apply gd_res|]. intros e' _. eapply gd_bind; [apply gd_res|]. intros [p' m] _. eapply gd_bind; [apply gd_res|]. intros r' _. exact Hs.
      + eapply gd_bind; [apply gd_res|]. intros e' _. exact Hs.
    - eapply gd_bind; [apply gd_dedent|]. intros s Hs. eapply gd_bind; [apply gd_line|]. intros _ _. exact Hs.
  Qed.
  Lemma gd_fresh m : gd F (fun _ => True) (fresh_filter_name (chain_size m) m O).
  Proof. destruct (fresh_filter_name (chain_size m) m O) eqn:E; cbn; auto. destruct (fresh_ends m E). Qed.

  (** [body] keeps the block; [R] is what is known when it ended. *)
  Definition keeps (sup : option (str * nat)) (R : Prop) (r : gres gen) : Prop := gd F (fun r : gen => s_super (snd r) = sup /\ R) r.
  Section Parts.
    Variable sup : option (str * nat).
    Lemma keeps_loop b l h w1 v it c w2 w3 st (R1 R2 : Prop) : (forall st, s_super st = sup -> keeps sup R1 (b st)) -> (forall st, s_super st = sup -> h = true -> keeps sup R2 (l st)) ->
      s_super st = sup -> keeps sup (R1 /\ (h = true -> R2)) (write_loop inp b l h w1 v it c w2 w3 st).
    Proof.
      intros H1 H2 E. unfold write_loop, keeps. eapply gd_bind; [apply gd_res|]. intros r _. eapply gd_bind; [apply gd_write|]. intros [[c0 z0] s0] S0.
      eapply gd_bind; [apply gd_line|]. intros _ _. eapply gd_bind; [apply gd_line|]. intros _ _. cbn [snd] in S0. unfold push_locals in S0. cbn [s_super set_locals] in S0. rewrite sup_ws, E in S0.
      eapply (gd_bind F (fun x : option (target * rexpr) * gst => s_super (snd x) = sup)).
      { destruct c as [c|]; [|cbn; rewrite sup_open; exact S0]. eapply gd_bind; [apply gd_res|]. intros [p m] _. eapply gd_bind; [apply gd_res|]. intros c' _.
        eapply gd_bind; [apply gd_pop|]. intros s Hs. cbn in *. rewrite Hs. rewrite sup_open. exact S0. }
      intros [flt s1] S1. cbn [snd] in S1. eapply gd_bind; [apply gd_line|]. intros _ _. eapply gd_bind; [apply gd_res|]. intros [p m] _.
      eapply (gd_bind F (fun _ => True)); [destruct h; [apply gd_line|exact I]|]. intros _ _.
      eapply gd_bind; [apply H1; rewrite sup_open; exact S1|]. intros [[c1 z1] s2] [S2 K1]. cbn [snd] in S2.
      eapply gd_bind; [apply gd_write|]. intros [[c1' z1'] s3] S3. cbn [snd] in S3. rewrite sup_ws, S2 in S3.
      eapply gd_bind; [apply gd_pop|]. intros s4 S4. rewrite S3 in S4. eapply gd_bind; [apply gd_close|]. intros s5 S5. rewrite S4 in S5.
      eapply (gd_bind F (fun x : list stmt * list stmt * N * gst => s_super (snd x) = sup /\ (h = true -> R2))).
      { destruct h.
        - eapply gd_bind; [apply gd_line|]. intros _ _. eapply gd_bind; [apply H2; [unfold push_locals; cbn; rewrite sup_open; exact S5|reflexivity]|]. intros [[c2 z2] s6] [S6 K2].
          cbn [snd] in S6. eapply gd_bind; [apply gd_write|]. intros [[c2' z2'] s7] S7. cbn [snd] in S7. rewrite sup_ws, S6 in S7.
          eapply gd_bind; [apply gd_pop|]. intros s8 S8. rewrite S7 in S8. eapply gd_bind; [apply gd_close|]. intros s9 S9. rewrite S8 in S9. cbn. split; [exact S9|intros _; exact K2].
        - eapply gd_bind; [apply gd_write|]. intros [[c2' z2'] s7] S7. cbn [snd] in S7. rewrite sup_ws, S5 in S7. cbn. split; [exact S7|discriminate]. }
      intros [[[ce ct] z2] s6] [S6 K2]. cbn [snd] in S6. eapply gd_bind; [apply gd_close|]. intros s7 S7. rewrite S6 in S7. eapply gd_bind; [apply gd_pop|]. intros s8 S8. rewrite S7 in S8.
      cbn. auto.
    Qed.
    Lemma keeps_filter b w1 f a w2 st (R : Prop) : (forall st, s_super st = sup -> keeps sup R (b st)) -> s_super st = sup -> keeps sup R (write_filter_block inp b w1 f a w2 st).
    Proof.
      intros H1 E. unfold write_filter_block, keeps. eapply gd_bind; [apply gd_fresh|]. intros var _. eapply gd_bind; [apply H1; cbn; rewrite sup_flush; exact E|].
      intros [[c z] s] [S1 K]. cbn [snd] in S1. eapply gd_bind; [apply gd_res|]. intros [[wz ps] nm] _.
      assert (S2 : s_super (set_named nm (set_buf [] (do_flush_ws inp (ws_l w2) s))) = sup) by (cbn; rewrite sup_flush; exact S1).
      assert (T : forall (x : gres unit) stm, gd F (fun _ => True) x -> gd F (fun r : gen => s_super (snd r) = sup /\ R)
        (let* _ := x in let* _ := line (set_named nm (set_buf [] (do_flush_ws inp (ws_l w2) s))) in
         let s' := set_buf (s_buf (do_flush_ws inp (ws_l w1) st)) (set_named nm (set_buf [] (do_flush_ws inp (ws_l w2) s))) in
         let* (r, wrapped) := of_res (visit_expr inp (s_locals s') (insert_in_filter var (Filter f a))) in
         let s'' := do_prepare_ws inp (ws_r w2) (push [WGen r wrapped] s') in
         let* m := of_res (ch_insert (s_locals s'') var m_initialized) in
         GOk (c ++ emit s'' [stm], z + wz, set_locals m s''))).
      { intros x stm Hx. eapply gd_bind; [exact Hx|]. intros _ _. eapply gd_bind; [apply gd_line|]. intros _ _. cbv zeta. eapply gd_bind; [apply gd_res|]. intros [r wr] _.
        eapply gd_bind; [apply gd_res|]. intros m _. cbn. split; [|exact K]. rewrite sup_push. exact S2. }
      destruct ps as [|x|x y]; [cbn; auto| |].
      - apply (T (GOk tt) (SLetStr var x)). exact I.
      - apply (T (if 62 <=? o_indent (set_named nm (set_buf [] (do_flush_ws inp (ws_l w2) s))) then GPanic else GOk tt) (SLetFmt var x y)). destruct (62 <=? _); exact I.
    Qed.
    Section Lists.
      Variable f : node -> gst -> gres gen.
      Variable R : node -> Prop.
      Lemma keeps_list : forall ns, (forall n, In n ns -> forall st, s_super st = sup -> keeps sup (R n) (f n st)) ->
        forall st, s_super st = sup -> keeps sup (forall n, In n ns -> R n) (gen_list f ns st).
      Proof.
        induction ns as [|n ns IH]; intros H st E; cbn [gen_list].
        - split; [exact E|intros n []].
        - eapply gd_bind; [apply H; [left; reflexivity|exact E]|]. intros [[c z] s] [S1 K1]. eapply gd_bind; [apply IH; [intros; apply H; [right|]; assumption|exact S1]|].
          intros [[c' z'] s'] [S2 K2]. split; [exact S2|]. intros m [<-|Hm]; auto.
      Qed.
      Lemma keeps_branches w : forall cs, (forall w' t ns, In (Cond w' t ns) cs -> forall st, s_super st = sup -> keeps sup (forall n, In n ns -> R n) (gen_list f ns st)) ->
        forall first st, s_super st = sup -> gd F (fun r => s_super (snd r) = sup /\ forall w' t ns, In (Cond w' t ns) cs -> forall n, In n ns -> R n) (gen_branches inp f w first cs st).
      Proof.
        induction cs as [|[w' t ns] cs IH]; intros H first st E; cbn [gen_branches].
        - eapply gd_bind; [apply gd_write|]. intros [[c z] s] S1. cbn [snd] in S1. rewrite sup_ws, E in S1. eapply gd_bind; [apply gd_close|]. intros s2 S2. rewrite S1 in S2.
          eapply gd_bind; [apply gd_pop|]. intros s3 S3. rewrite S2 in S3. split; [exact S3|intros ? ? ? []].
        - eapply gd_bind; [apply gd_write|]. intros [[c z] s] S1. cbn [snd] in S1. rewrite sup_ws, E in S1.
          eapply (gd_bind F (fun s => s_super s = sup)); [destruct first; [exact S1|eapply gd_imp; [apply gd_pop|cbn beta; intros ? ->; exact S1]]|]. intros s2 S2.
          eapply gd_bind; [apply gd_test|]. intros [t' s3] S3. cbn [snd] in S3. unfold push_locals in S3. cbn [s_super set_locals] in S3. rewrite S2 in S3.
          eapply gd_bind; [eapply H; [left; reflexivity|rewrite sup_open; exact S3]|]. intros [[b z'] s4] [S4 K4]. eapply gd_bind; [apply IH; [intros; eapply H; [right; eassumption|assumption]|exact S4]|].
          intros [[[[[a r] z2] sz] he] s5] [S5 K5]. split; [exact S5|]. intros w0 t0 ns0 [Q|Q]; [injection Q as <- <- <-; exact K4|eapply K5, Q].
      Qed.
      Lemma keeps_arms w : forall cs, (forall w' t ns, In (When w' t ns) cs -> forall st, s_super st = sup -> keeps sup (forall n, In n ns -> R n) (gen_list f ns st)) ->
        forall first st, s_super st = sup -> gd F (fun r => s_super (snd r) = sup /\ forall w' t ns, In (When w' t ns) cs -> forall n, In n ns -> R n) (gen_arms inp f w first cs st).
      Proof.
        induction cs as [|[w' t ns] cs IH]; intros H first st E; cbn [gen_arms].
        - eapply gd_bind; [apply gd_write|]. intros [[c z] s] S1. cbn [snd] in S1. rewrite sup_ws, E in S1. eapply gd_bind; [apply gd_close|]. intros s2 S2. rewrite S1 in S2.
          eapply gd_bind; [apply gd_pop|]. intros s3 S3. rewrite S2 in S3. split; [exact S3|intros ? ? ? []].
        - eapply (gd_bind F (out3 sup)).
          { destruct first; [cbn [gd snd]; rewrite sup_ws; exact E|]. eapply gd_bind; [apply gd_write|]. intros [[c z] s] S1. cbn [snd] in S1. rewrite sup_ws, E in S1.
            eapply gd_bind; [apply gd_close|]. intros s2 S2. rewrite S1 in S2. eapply gd_bind; [apply gd_pop|]. intros s3 S3. rewrite S2 in S3. exact S3. }
          intros [[c z] s] S1. cbn [snd] in S1. eapply gd_bind; [apply gd_line|]. intros _ _. eapply gd_bind; [apply gd_res|]. intros [p m] _.
          eapply gd_bind; [eapply H; [left; reflexivity|rewrite sup_open; exact S1]|]. intros [[b z'] s4] [S4 K4]. eapply gd_bind; [apply IH; [intros; eapply H; [right; eassumption|assumption]|exact S4]|].
          intros [[[[a z2] r] sz] s5] [S5 K5]. split; [exact S5|]. intros w0 t0 ns0 [Q|Q]; [injection Q as <- <- <-; exact K4|eapply K5, Q].
      Qed.
    End Lists.
  End Parts.

  Section Step.
    Variable expand : option heritage -> context -> list node -> level -> gst -> gres gen.
    Variable p : piece.
    Variable E : piece -> Prop.
    Notation lt := (leads_to inp contexts find p).
    (** The piece a node leads to is expanded well, and then [E] is known of it. *)
    Definition well (n : node) : Prop := forall q, lt n = Some q -> forall lv st, s_super st = p_sup q -> keeps (p_sup q) (E q) (expand (p_her q) (p_ctx q) (p_nodes q) lv st).
    Definition known (n : node) : Prop := forall q, lt n = Some q -> E q.
    Hypothesis HL : F = false -> all_lineages contexts.

    Lemma step_block x g outer name st : s_super st = p_sup p ->
      match name, s_super st with
      | Some y, None => (x, g) = (y, O)
      | Some y, Some (prev, _) => str_eqb y prev = false /\ (x, g) = (y, O)
      | None, Some (prev, g') => (x, g) = (prev, S g')
      | None, None => False
      end ->
      (forall q, block_piece p x g = Some q -> forall lv st, s_super st = p_sup q -> keeps (p_sup q) (E q) (expand (p_her q) (p_ctx q) (p_nodes q) lv st)) ->
      keeps (p_sup p) (forall q, block_piece p x g = Some q -> E q) (write_block inp expand (p_her p) (p_ctx p) name outer st).
    Proof.
      intros Es C H. unfold write_block, keeps. rewrite sup_flush.
      eapply (gd_bind F (fun cur => cur = (x, g))).
      { destruct name as [y|], (s_super st) as [[prev g']|]; cbn.
        - destruct C as [-> ->]. reflexivity.
        - symmetry. exact C.
        - symmetry. exact C.
        - contradiction. }
      intros cur ->. eapply gd_bind; [apply gd_write|]. intros [[c z] s] S1. cbn [snd] in S1. rewrite sup_flush, Es in S1.
      unfold block_piece in *. destruct (p_her p) as [h|] eqn:Eh; [|exact I]. cbn [fst snd]. destruct (get x (h_blocks h)) as [defs|]; [|exact I].
      destruct (nth_error defs g) as [[cc d]|]; [|exact I]. specialize (H _ eq_refl). cbn [p_sup p_her p_ctx p_nodes] in H.
      eapply gd_bind; [apply H; reflexivity|]. intros [[c1 z1] s1] [_ K].
      eapply (gd_bind F (fun _ => True)); [destruct (ch_is_current_empty (s_locals s1)); [exact I|eapply gd_imp; [apply gd_write|auto]]|].
      intros [[c2 z2] s2] _. split; [exact S1|]. intros q [= <-]. exact K.
    Qed.

    Lemma step_include w path st : s_super st = p_sup p -> well (NInclude w path) -> keeps (p_sup p) (known (NInclude w path)) (write_include inp contexts find expand (p_ctx p) w path st).
    Proof.
      intros Es H. unfold write_include, keeps. unfold well, known, leads_to in *. eapply gd_bind; [apply gd_write|]. intros [[c z] s] S1. cbn [snd] in S1. rewrite sup_flush, Es in S1.
      destruct (find path (f_path inp)) as [q|m|]; cbn [of_res gbind]; try exact I. eapply gd_bind; [apply gd_line|]. intros _ _.
      destruct (get q contexts) as [cc|] eqn:G; [|exact I].
      assert (T : forall h0, (opened contexts (merge_context (p_ctx p) cc) = Some {| p_her := h0; p_ctx := match h0 with Some h => h_root h | None => merge_context (p_ctx p) cc end; p_sup := None;
                                    p_nodes := c_nodes match h0 with Some h => h_root h | None => merge_context (p_ctx p) cc end |}) ->
         gd F (fun r : gen => s_super (snd r) = p_sup p /\ forall q, 
            opened contexts (merge_context (p_ctx p) cc) = Some q -> E q)
          (let handle_ctx := match h0 with Some h => h_root h | None => merge_context (p_ctx p) cc end in
          let child := {| s_locals := ch_with_parent (s_locals s); s_ws := ws_init; s_super := None; s_buf := [];
                          s_discard := s_discard s; s_named := O; o_indent := o_indent s; o_discard := o_discard s |} in
          let* (code, z, child) := expand h0 handle_ctx (c_nodes handle_ctx) LTop child in
          let* (code', z', child) := write_buf_writable inp child in
          let st := set_indent (o_indent child) s in
          GOk (c ++ emit st [SIncludeBytes q] ++ code ++ code', z + z', do_prepare_ws inp (ws_r w) st))).
      { intros h0 T. cbv zeta. specialize (H _ T). cbn [p_sup p_her p_ctx p_nodes] in H. eapply gd_bind; [apply H; reflexivity|]. intros [[c1 z1] s1] [_ K].
        eapply gd_bind; [apply gd_write|]. intros [[c2 z2] s2] _. split; [exact S1|]. intros q' Q. rewrite T in Q. injection Q as <-. exact K. }
      clear H. cbv zeta in *.
      assert (TH : gd F (fun h => heritage_new (S (length contexts)) contexts (merge_context (p_ctx p) cc) = GOk h) (heritage_new (S (length contexts)) contexts (merge_context (p_ctx p) cc))).
      { destruct (heritage_new (S (length contexts)) contexts (merge_context (p_ctx p) cc)) as [h|m| |] eqn:Eh; try exact I; [reflexivity|].
        cbn. destruct F; [reflexivity|]. exfalso. destruct (HL eq_refl _ _ G) as [l L]. destruct (lineage_merge _ (p_ctx p) _ _ L) as [l' L'].
        destruct (heritage_ends contexts (S (length contexts)) (merge_context (p_ctx p) cc)) as [h Hh]; [lia|exists l'; exact L'|]. congruence. }
      destruct (c_blocks (merge_context (p_ctx p) cc)) as [|b bs] eqn:Eb; [destruct (c_extends (merge_context (p_ctx p) cc)) as [ex|] eqn:Ee|].
      - eapply gd_bind; [eapply (gd_bind F _ (fun h0 => exists h, heritage_new (S (length contexts)) contexts (merge_context (p_ctx p) cc) = GOk h /\ h0 = Some h)); [exact TH|]; intros h Hh; exists h; split; [exact Hh|reflexivity]|].
        intros h0 (hh & Hhh & ->). apply (T (Some hh)). unfold opened. rewrite Eb, ?Ee, Hhh. reflexivity.
      - cbn [gbind]. apply (T None). unfold opened. rewrite Eb, Ee. reflexivity.
      - eapply gd_bind; [eapply (gd_bind F _ (fun h0 => exists h, heritage_new (S (length contexts)) contexts (merge_context (p_ctx p) cc) = GOk h /\ h0 = Some h)); [exact TH|]; intros h Hh; exists h; split; [exact Hh|reflexivity]|].
        intros h0 (hh & Hhh & ->). apply (T (Some hh)). unfold opened. rewrite Eb, ?Ee, Hhh. reflexivity.
    Qed.

    Lemma step_call w scope name args st : s_super st = p_sup p -> well (NCall w scope name args) ->
      keeps (p_sup p) (known (NCall w scope name args)) (write_call inp contexts expand (p_her p) (p_ctx p) w scope name args st).
    Proof.
      intros Es H. unfold write_call. unfold well, known in *. cbn [leads_to] in *. destruct (str_eqb name (lit "super")).
      - destruct (p_sup p) as [[x g]|] eqn:Ep.
        + rewrite <- Ep. apply step_block; [congruence|rewrite Es; reflexivity|exact H].
        + unfold write_block, keeps. rewrite sup_flush, Es. exact I.
      - unfold keeps. set (T := match scope with None => _ | Some s => _ end) in *.
        eapply (gd_bind F (fun r => T = Some (macro_piece p (fst r) (snd r)))).
        { subst T. destruct scope as [s|].
          - destruct (get s (c_imports (p_ctx p))) as [path|]; [|exact I]. destruct (get path contexts) as [c|]; [|exact I]. destruct (get name (c_macros c)); [reflexivity|exact I].
          - destruct (get name (c_macros (p_ctx p))); [reflexivity|exact I]. }
        intros [def own] ET. cbn [fst snd] in ET. specialize (H _ ET). cbn [p_sup p_her p_ctx p_nodes macro_piece] in H.
        eapply gd_bind; [apply gd_write|]. intros [[c z] s] S1. unfold push_locals in S1. cbn [snd s_super set_locals] in S1. rewrite sup_flush, Es in S1.
        eapply gd_bind; [apply gd_line|]. intros _ _. destruct (negb (Nat.eqb (length args) (length (k_args def)))); [exact I|].
        eapply gd_bind; [apply gd_res|]. intros nm _. eapply gd_bind; [apply gd_res|]. intros [[m ns] vs] _.
        eapply (gd_bind F (fun _ => True)); [destruct ns; [exact I|apply gd_line]|]. intros _ _.
        eapply gd_bind; [apply H; cbn; rewrite sup_open; exact S1|]. intros [[c1 z1] s1] [S2 K]. cbn [snd] in S2.
        eapply gd_bind; [apply gd_write|]. intros [[c2 z2] s2] S3. cbn [snd] in S3. rewrite sup_flush, S2 in S3.
        eapply gd_bind; [apply gd_close|]. intros s3 S4. rewrite S3 in S4. eapply gd_bind; [apply gd_pop|]. intros s4 S5. rewrite S4 in S5.
        split; [exact S5|]. intros q Q. assert (q = macro_piece p def own) by congruence. subst q. exact K.
    Qed.

    Lemma leaf_known n (Q : leads_to inp contexts find p n = None) : known n.
    Proof. intros q Hq. congruence. Qed.
    Lemma known_site n : known n -> (sites n = [n]) -> forall m, In m (sites n) -> known m.
    Proof. intros K -> m [<-|[]]. exact K. Qed.
    Lemma keeps_leaf n r : sites n = [n] -> keeps (p_sup p) (known n) r -> keeps (p_sup p) (forall m, In m (sites n) -> known m) r.
    Proof. intros S K. eapply gd_imp; [exact K|]. cbn beta. intros a [A B]. split; [exact A|]. apply known_site; assumption. Qed.
    Lemma keeps_bare n r : sites n = [n] -> leads_to inp contexts find p n = None -> gd F (out3 (p_sup p)) r -> keeps (p_sup p) (forall m, In m (sites n) -> known m) r.
    Proof. intros S L K. apply keeps_leaf; [exact S|]. eapply gd_imp; [exact K|]. cbn beta. intros a A. split; [exact A|apply leaf_known, L]. Qed.
    Lemma step_node : forall n lv st, s_super st = p_sup p -> (forall m, In m (sites n) -> well m) ->
      keeps (p_sup p) (forall m, In m (sites n) -> known m) (handle_node inp contexts find expand (p_her p) (p_ctx p) lv n st).
    Proof.
      induction n using node_ind_all; intros lv st Es H'; cbn [handle_node].
      - destruct n; try contradiction; cbn [handle_node].
        + apply keeps_bare; try reflexivity. eapply gd_bind; [apply gd_lit|]. intros s Hs. cbn. congruence.
        + apply keeps_bare; try reflexivity. cbn [gd snd]. rewrite sup_ws. exact Es.
        + apply keeps_bare; try reflexivity. cbn [gd snd]. rewrite sup_push, sup_ws. exact Es.
        + apply keeps_leaf; [reflexivity|]. apply step_call; [exact Es|]. apply H'. left. reflexivity.
        + apply keeps_bare; try reflexivity. rewrite <- Es. apply gd_let.
        + apply keeps_bare; try reflexivity. destruct (top_level lv); [exact Es|exact I].
        + apply keeps_leaf; [reflexivity|]. apply step_include; [exact Es|]. apply H'. left. reflexivity.
        + apply keeps_bare; try reflexivity. destruct (top_level lv); [cbn [gd snd]; rewrite sup_ws; exact Es|exact I].
        + apply keeps_bare; try reflexivity. eapply gd_bind; [apply gd_lit|]. intros s Hs. cbn [gd snd]. rewrite sup_ws, Hs, sup_ws. exact Es.
        + apply keeps_bare; try reflexivity. eapply gd_bind; [apply gd_write|]. intros [[c z] s] S1. eapply gd_bind; [apply gd_line|]. intros _ _. cbn [gd snd] in *. rewrite S1, sup_ws. exact Es.
        + apply keeps_bare; try reflexivity. eapply gd_bind; [apply gd_write|]. intros [[c z] s] S1. eapply gd_bind; [apply gd_line|]. intros _ _. cbn [gd snd] in *. rewrite S1, sup_ws. exact Es.
      - eapply gd_bind.
        + apply (keeps_branches (p_sup p) _ (fun n => forall m, In m (sites n) -> known m)); [|exact Es]. intros w' t ns Hc s Hs.
          rewrite Forall_forall in H. specialize (H _ Hc). cbn in H. rewrite Forall_forall in H. apply keeps_list; [|exact Hs].
          intros n Hn s' Hs'. apply H; [exact Hn|exact Hs'|]. intros m Hm. apply H'. right. apply in_flat_map. exists (Cond w' t ns). split; [exact Hc|]. apply in_flat_map. eauto.
        + intros [[[[[c br] z] sz] he] s] [S1 K]. cbn [snd] in S1. eapply gd_bind; [apply gd_res|]. intros z' _. split; [exact S1|].
          intros m [<-|Hm]; [intros q Q; discriminate Q|]. apply in_flat_map in Hm as ([w' t ns] & Hc & Hm). apply in_flat_map in Hm as (n & Hn & Hm). eapply K; eassumption.
      - eapply gd_bind; [apply gd_write|]. intros [[c z] s] S1. cbn [snd] in S1. rewrite sup_flush, Es in S1. eapply gd_bind; [apply gd_res|]. intros r _. eapply gd_bind; [apply gd_line|]. intros _ _.
        eapply gd_bind.
        + apply (keeps_arms (p_sup p) _ (fun n => forall m, In m (sites n) -> known m)); [|rewrite sup_open; exact S1]. intros w' t ns Hc s0 Hs0.
          rewrite Forall_forall in H. specialize (H _ Hc). cbn in H. rewrite Forall_forall in H. apply keeps_list; [|exact Hs0].
          intros n Hn s' Hs'. apply H; [exact Hn|exact Hs'|]. intros m Hm. apply H'. right. apply in_flat_map. exists (When w' t ns). split; [exact Hc|]. apply in_flat_map. eauto.
        + intros [[[[c1 z1] ar] sz] s2] [S2 K]. cbn [snd] in S2. eapply gd_bind; [apply gd_close|]. intros s3 S3. rewrite S2 in S3. eapply gd_bind; [apply gd_res|]. intros z' _. split; [exact S3|].
          intros m [<-|Hm]; [intros q Q; discriminate Q|]. apply in_flat_map in Hm as ([w' t ns] & Hc & Hm). apply in_flat_map in Hm as (n & Hn & Hm). eapply K; eassumption.
      - rewrite Forall_forall in *. eapply gd_imp.
        + apply (keeps_loop (p_sup p) _ _ _ _ _ _ _ _ _ _ (forall n, In n body -> forall m, In m (sites n) -> known m) (forall n, In n els -> forall m, In m (sites n) -> known m)); [| |exact Es].
          * intros s Hs. apply (keeps_list (p_sup p) _ (fun n => forall m, In m (sites n) -> known m)); [|exact Hs]. intros n Hn s' Hs'. apply H; [exact Hn|exact Hs'|].
            intros m Hm. apply H'. right. apply in_app_iff. left. apply in_flat_map. eauto.
          * intros s Hs _. apply (keeps_list (p_sup p) _ (fun n => forall m, In m (sites n) -> known m)); [|exact Hs]. intros n Hn s' Hs'. apply H0; [exact Hn|exact Hs'|].
            intros m Hm. apply H'. right. apply in_app_iff. right. apply in_flat_map. eauto.
        + cbn beta. intros a [A [B C]]. split; [exact A|]. intros m [<-|Hm]; [intros q Q; discriminate Q|]. apply in_app_iff in Hm as [Hm|Hm]; apply in_flat_map in Hm as (n & Hn & Hm); [eapply B; eassumption|].
          refine (C _ n Hn m Hm). destruct els; [destruct Hn|reflexivity].
      - apply keeps_leaf; [reflexivity|]. assert (W := H' _ (or_introl eq_refl)). unfold well, known in *. cbn [leads_to] in *. destruct (p_sup p) as [[y g]|] eqn:Ep.
        + destruct (str_eqb x y) eqn:Exy.
          * unfold write_block, keeps. rewrite sup_flush, Es, Exy. exact I.
          * rewrite <- Ep. apply step_block; [congruence|rewrite Es; auto|exact W].
        + rewrite <- Ep. apply step_block; [congruence|rewrite Es; auto|exact W].
      - apply keeps_bare; try reflexivity. destruct (top_level lv); [cbn; rewrite sup_flush; exact Es|exact I].
      - rewrite Forall_forall in *. eapply gd_imp.
        + apply (keeps_filter (p_sup p) _ _ _ _ _ _ (forall n, In n l -> forall m, In m (sites n) -> known m)); [|exact Es].
          intros s Hs. apply (keeps_list (p_sup p) _ (fun n => forall m, In m (sites n) -> known m)); [|exact Hs]. intros n Hn s' Hs'. apply H; [exact Hn|exact Hs'|].
          intros m Hm. apply H'. right. apply in_flat_map. eauto.
        + cbn beta. intros b [A B]. split; [exact A|]. intros m [<-|Hm]; [intros q Q; discriminate Q|]. apply in_flat_map in Hm as (n & Hn & Hm). eapply B; eassumption.
    Qed.
    Lemma step_nodes lv st : s_super st = p_sup p -> (forall q, leads inp contexts find p q -> forall lv st, s_super st = p_sup q -> keeps (p_sup q) (E q) (expand (p_her q) (p_ctx q) (p_nodes q) lv st)) ->
      keeps (p_sup p) (forall q, leads inp contexts find p q -> E q) (handle_nodes inp contexts find expand (p_her p) (p_ctx p) (p_nodes p) lv st).
    Proof.
      intros Es H. unfold handle_nodes. eapply gd_bind.
      - apply (keeps_list (p_sup p) _ (fun n => forall m, In m (sites n) -> known m)); [|exact Es]. intros n Hn s Hs. apply step_node; [exact Hs|].
        intros m Hm q Q. apply H. exists m. split; [apply in_flat_map; eauto|exact Q].
      - intros [[c z] s] [S1 K]. cbn [snd] in S1.
        assert (K' : forall q, leads inp contexts find p q -> E q).
        { intros q (m & Hm & Q). apply in_flat_map in Hm as (n & Hn & Hm). exact (K n Hn m Hm q Q). }
        destruct (top_level lv); [|cbn; auto]. eapply gd_bind; [apply gd_write|]. intros [[c' z'] s'] S2. split; [|exact K'].
        cbn [snd] in *. rewrite S2. destruct (next_ws (s_ws s)); [rewrite sup_flush|]; exact S1.
    Qed.
  End Step.
End Ends.

Section Handle.
  Variables (inp : ginput) (contexts : list (str * context)) (find : str -> str -> res str).
  Lemma handle_keeps : forall fuel p lv st, s_super st = p_sup p -> keeps true (p_sup p) (ends inp contexts find p) (handle inp contexts find fuel (p_her p) (p_ctx p) (p_nodes p) lv st).
  Proof.
    induction fuel as [|f IH]; intros p lv st Es; [reflexivity|]. cbn [handle]. eapply gd_imp.
    - apply (step_nodes inp contexts find true _ p (ends inp contexts find)); [discriminate|exact Es|]. intros q _ lv' st' Es'. apply IH, Es'.
    - cbn beta. intros a [A B]. split; [exact A|constructor; exact B].
  Qed.
End Handle.
Section Enough.
  Variables (inp : ginput) (contexts : list (str * context)) (find : str -> str -> res str).
  Hypothesis HL : all_lineages contexts.
  Notation expands fuel q := (forall lv st, s_super st = p_sup q -> keeps false (p_sup q) True (handle inp contexts find fuel (p_her q) (p_ctx q) (p_nodes q) lv st)).
  Lemma expands_more f1 f2 q : (f1 <= f2)%nat -> expands f1 q -> expands f2 q.
  Proof.
    intros L H lv st Es. specialize (H lv st Es). destruct (handle_le inp contexts find f1 f2 L (p_her q) (p_ctx q) (p_nodes q) lv st) as [G|G].
    - rewrite G in H. discriminate H.
    - rewrite G. exact H.
  Qed.
  Lemma expands_all p : forall l, (forall n q, In n l -> leads_to inp contexts find p n = Some q -> exists fuel, expands fuel q) ->
    exists fuel, forall n q, In n l -> leads_to inp contexts find p n = Some q -> expands fuel q.
  Proof.
    induction l as [|n l IH]; intros H; [exists O; intros n q []|].
    destruct IH as [f1 H1]; [intros; eapply H; [right|]; eassumption|].
    destruct (leads_to inp contexts find p n) as [q0|] eqn:E.
    - destruct (H n q0) as [f2 H2]; [left; reflexivity|exact E|]. exists (f1 + f2)%nat. intros m q [<-|Hm] Q.
      + assert (q = q0) by congruence. subst q. eapply expands_more; [|exact H2]. lia.
      + eapply expands_more; [|exact (H1 m q Hm Q)]. lia.
    - exists f1. intros m q [<-|Hm] Q; [congruence|exact (H1 m q Hm Q)].
  Qed.
  Lemma ends_expands p : ends inp contexts find p -> exists fuel, expands fuel p.
  Proof.
    induction 1 as [p _ IH]. destruct (expands_all p (flat_map sites (p_nodes p))) as [f Hf].
    { intros n q Hn Q. apply IH. exists n. auto. }
    exists (S f). intros lv st Es. cbn [handle]. eapply gd_imp.
    - apply (step_nodes inp contexts find false (handle inp contexts find f) p (fun _ => True)); [intros _; exact HL|exact Es|].
      intros q (n & Hn & Q). exact (Hf n q Hn Q).
    - cbn beta. intros a [A _]. auto.
  Qed.
End Enough.

Section Whole.
  Variables (inp : ginput) (find : str -> str -> res str) (templates : list (str * list node)) (contexts : list (str * context)) (ctx : context).
  Hypothesis HB : build_contexts find templates = GOk contexts.
  Hypothesis HG : get (f_path inp) contexts = Some ctx.
  Lemma heritage_same f1 f2 c h h' : heritage_new f1 contexts c = GOk h -> heritage_new f2 contexts c = GOk h' -> h = h'.
  Proof.
    intros E1 E2. unfold heritage_new in *. destruct (Nat.le_ge_cases f1 f2) as [L|L].
    - destruct (heritage_le contexts f1 f2 L c (map (fun x => (fst x, [(c, snd x)])) (c_blocks c))) as [G|G]; congruence.
    - destruct (heritage_le contexts f2 f1 L c (map (fun x => (fst x, [(c, snd x)])) (c_blocks c))) as [G|G]; congruence.
  Qed.
  Lemma impl_fuel fuel her : (forall lv st, s_super st = None -> keeps false None True (handle inp contexts find fuel her (match her with Some h => h_root h | None => ctx end) (c_nodes (match her with Some h => h_root h | None => ctx end)) lv st)) ->
    impl_template inp contexts find fuel her ctx <> GFuel.
  Proof.
    intros H E. specialize (H LTop (initial inp 2) eq_refl). unfold impl_template in E.
    enough (G : gd false (fun _ : list stmt * N => True) (let* (code, z, st) := handle inp contexts find fuel her (match her with Some h => h_root h | None => ctx end) (c_nodes (match her with Some h => h_root h | None => ctx end)) LTop (initial inp 2) in
         let* _ := line st in let* st := close_brace st in let* _ := line st in let* _ := close_brace st in GOk (code, z))) by (rewrite E in G; discriminate G).
    eapply gd_bind; [exact H|]. intros [[c z] s] _. eapply gd_bind; [apply gd_line|]. intros _ _. eapply gd_bind; [apply gd_close|]. intros s2 _.
    eapply gd_bind; [apply gd_line|]. intros _ _. eapply gd_bind; [apply gd_close|]. intros _ _. exact I.
  Qed.
  (** Enough: the chains of pieces and of parents end. *)
  Theorem build_ends : all_lineages contexts -> (forall p, opened contexts ctx = Some p -> ends inp contexts find p) -> exists fuel, build_template inp find fuel templates <> GFuel.
  Proof.
    intros HL HE. destruct (heritage_ends contexts (S (length contexts)) ctx) as [h Hh]; [lia|exact (HL _ _ HG)|].
    assert (Q : forall fuel, (length contexts <= fuel)%nat -> heritage_new fuel contexts ctx = GOk h).
    { intros fuel L. destruct (heritage_ends contexts fuel ctx L (HL _ _ HG)) as [h' Hh']. rewrite Hh'. f_equal. exact (heritage_same _ _ _ _ _ Hh' Hh). }
    assert (K : exists p fuel, opened contexts ctx = Some p /\ (forall lv st, s_super st = p_sup p -> keeps false (p_sup p) True (handle inp contexts find fuel (p_her p) (p_ctx p) (p_nodes p) lv st))).
    { destruct (opened contexts ctx) as [p|] eqn:Eo.
      - destruct (ends_expands inp contexts find HL p (HE p eq_refl)) as [f Hf]. eauto.
      - unfold opened in Eo. rewrite Hh in Eo. destruct (c_blocks ctx), (c_extends ctx); discriminate Eo. }
    destruct K as (p & f & Eo & Hf). exists (f + length contexts)%nat. unfold build_template. rewrite HB. cbn [gbind]. rewrite HG.
    assert (Hf' := expands_more inp contexts find f (f + length contexts) p ltac:(lia) Hf). unfold opened in Eo. rewrite Hh in Eo. rewrite (Q (f + length contexts)%nat) by lia.
    destruct (c_blocks ctx) as [|b bs]; [destruct (c_extends ctx) as [ex|]|]; injection Eo as <-; cbn [p_her p_ctx p_nodes p_sup gbind] in *.
    - destruct (f_block inp) as [bl|]; [destruct (get bl (h_blocks h)); [|discriminate]|]; apply (impl_fuel _ (Some h)), Hf'.
    - apply (impl_fuel _ None), Hf'.
    - destruct (f_block inp) as [bl|]; [destruct (get bl (h_blocks h)); [|discriminate]|]; apply (impl_fuel _ (Some h)), Hf'.
  Qed.
  (** Necessary: what compiles has only chains that end. *)
  Theorem build_ended fuel out p : (length contexts < fuel)%nat -> build_template inp find fuel templates = GOk out -> opened contexts ctx = Some p -> ends inp contexts find p.
  Proof.
    intros L E Eo. unfold build_template in E. rewrite HB in E. cbn [gbind] in E. rewrite HG in E.
    assert (K : forall her, impl_template inp contexts find fuel her ctx = GOk out ->
      ends inp contexts find {| p_her := her; p_ctx := match her with Some h => h_root h | None => ctx end; p_sup := None; p_nodes := c_nodes (match her with Some h => h_root h | None => ctx end) |}).
    { intros her E'. unfold impl_template in E'.
      pose proof (handle_keeps inp contexts find fuel {| p_her := her; p_ctx := match her with Some h => h_root h | None => ctx end; p_sup := None; p_nodes := c_nodes (match her with Some h => h_root h | None => ctx end) |} LTop (initial inp 2) eq_refl) as H.
      cbn [p_her p_ctx p_nodes] in H. destruct (handle _ _ _ _ _ _ _ _ _) as [r|m| |]; try discriminate E'. apply H. }
    assert (HN : forall h, heritage_new fuel contexts ctx = GOk h -> heritage_new (S (length contexts)) contexts ctx = GOk h \/ heritage_new (S (length contexts)) contexts ctx = GFuel).
    { intros h Hh. unfold heritage_new in *. destruct (heritage_le contexts (S (length contexts)) fuel ltac:(lia) ctx (map (fun x => (fst x, [(ctx, snd x)])) (c_blocks ctx))) as [G|G]; [right; exact G|left; congruence]. }
    unfold opened in Eo.
    assert (HK : forall h, heritage_new fuel contexts ctx = GOk h ->
       match f_block inp with Some b => match get b (h_blocks h) with None => GErr (lit "cannot find block") | Some _ => GOk (Some h) end | None => GOk (Some h) end = GOk (Some h) ->
       impl_template inp contexts find fuel (Some h) ctx = GOk out ->
       match heritage_new (S (length contexts)) contexts ctx with GOk h => Some {| p_her := Some h; p_ctx := h_root h; p_sup := None; p_nodes := c_nodes (h_root h) |} | _ => None end = Some p -> ends inp contexts find p).
    { intros h Hh _ Ei Ep. destruct (HN h Hh) as [G|G]; rewrite G in Ep; [|discriminate Ep]. injection Ep as <-. exact (K (Some h) Ei). }
    destruct (c_blocks ctx) as [|b bs]; [destruct (c_extends ctx) as [ex|]|].
    - destruct (heritage_new fuel contexts ctx) as [h|m| |] eqn:Hh; cbn [gbind] in E; try discriminate E. apply (HK h eq_refl); [| |exact Eo].
      + destruct (f_block inp) as [bl|]; [destruct (get bl (h_blocks h))|]; auto; discriminate E.
      + destruct (f_block inp) as [bl|]; [destruct (get bl (h_blocks h))|]; try exact E; discriminate E.
    - cbn [gbind] in E. injection Eo as <-. exact (K None E).
    - destruct (heritage_new fuel contexts ctx) as [h|m| |] eqn:Hh; cbn [gbind] in E; try discriminate E. apply (HK h eq_refl); [| |exact Eo].
      + destruct (f_block inp) as [bl|]; [destruct (get bl (h_blocks h))|]; auto; discriminate E.
      + destruct (f_block inp) as [bl|]; [destruct (get bl (h_blocks h))|]; try exact E; discriminate E.
  Qed.
End Whole.
(** What ends does not lead to itself. *)
Lemma ends_apart inp contexts find p : ends inp contexts find p -> forall q, Relation_Operators.clos_trans_1n piece (leads inp contexts find) p q -> p <> q.
Proof.
  induction 1 as [p H IH]. intros q C E. subst q. inversion C as [? L|r ? L C']; subst.
  - exact (IH p L p (Relation_Operators.t1n_step _ _ _ _ L) eq_refl).
  - refine (IH r L r _ eq_refl). clear -C' L. revert L. 
    assert (G : forall a b c, Relation_Operators.clos_trans_1n piece (leads inp contexts find) a b -> leads inp contexts find b c -> Relation_Operators.clos_trans_1n piece (leads inp contexts find) a c).
    { intros a b c H. induction H as [x y H|x y z H _ IH]; intros K.
      - eapply Relation_Operators.t1n_trans; [exact H|constructor; exact K].
      - eapply Relation_Operators.t1n_trans; [exact H|exact (IH K)]. }
    intros L. exact (G _ _ _ C' L).
Qed.
