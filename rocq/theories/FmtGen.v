(** * Facts behind Prop_Fmt.v: the format strings of the generated code. *)
From Verif Require Import Base Ws Ast Ident GenExpr Heritage Gen HeritageFacts RexprFacts PanicTop EndFacts FmtSpec.
From Verif Require GroupGen.
From Coq Require Import Lia.
Local Open Scope N_scope.

(** ** One format string *)
Lemma arg_identifier id : identifier (arg_name id).
Proof.
  exists 101, (lit "xpr" ++ nat_str id). split; [reflexivity|]. split; [left; lia|]. apply Forall_app. split.
  - change (lit "xpr") with [120; 112; 114]. do 3 (constructor; [left; left; lia|]). constructor.
  - eapply Forall_impl; [|apply nat_str_digits]. intros c H. right. exact H.
Qed.
Lemma format_app f l f' l' : Format f l -> Format f' l' -> Format (f ++ f') (l ++ l').
Proof.
  intros H H'. induction H; cbn [app]; [exact H'| | | |]; try (constructor; assumption).
  rewrite <- app_assoc. cbn [app]. constructor; assumption.
Qed.
Lemma format_text s : Format (double_braces s) [].
Proof.
  induction s as [|c s IH]; [constructor|]. unfold double_braces in *. cbn [map concat].
  destruct (N.eqb_spec c 123) as [->|H1]; [|destruct (N.eqb_spec c 125) as [->|H2]]; cbn [app]; constructor; assumption.
Qed.
Lemma format_hole id : Format (lit "{" ++ arg_name id ++ lit "}") [arg_name id].
Proof. exact (F_hole (arg_name id) [] [] (arg_identifier id) F_end). Qed.

(** What the loop keeps: the numbers of the arguments are below the counter and differ; the cache knows arguments only; the holes
    are the names of the arguments. *)
Definition ready (p : fparts) : Prop :=
  (forall id, In id (map fst (p_args p)) -> (id < p_named p)%nat) /\ NoDup (map fst (p_args p)) /\
  (forall e id, In (e, id) (p_cache p) -> In id (map fst (p_args p))) /\
  exists ids, Format (p_format p) (map arg_name ids) /\ forall id, In id ids <-> In id (map fst (p_args p)).
Lemma cache_in k : forall l id, cache_get k l = Some id -> exists e, In (e, id) l.
Proof.
  induction l as [|[e v] l IH]; intros id H; cbn [cache_get] in H; [discriminate H|]. destruct (rexpr_eqb k e).
  - injection H as <-. exists e. left. reflexivity.
  - destruct (IH id H) as [e' K]. exists e'. right. exact K.
Qed.
Lemma ready_text p s : ready p ->
  ready {| p_format := p_format p ++ double_braces s; p_args := p_args p; p_size := p_size p + byte_len s; p_cache := p_cache p; p_named := p_named p |}.
Proof.
  intros (H1 & H2 & H3 & ids & H4 & H5). split; [exact H1|]. split; [exact H2|]. split; [exact H3|]. exists ids. split; [|exact H5].
  cbn [p_format]. rewrite <- (app_nil_r (map arg_name ids)). apply format_app; [exact H4|apply format_text].
Qed.
Lemma ready_new p e cache z : ready p -> (forall e' id, In (e', id) cache -> In (e', id) (p_cache p) \/ id = p_named p) ->
  ready {| p_format := p_format p ++ lit "{" ++ arg_name (p_named p) ++ lit "}"; p_args := p_args p ++ [(p_named p, e)]; p_size := z;
           p_cache := cache; p_named := S (p_named p) |}.
Proof.
  intros (H1 & H2 & H3 & ids & H4 & H5) HC. unfold ready. cbn [p_args p_named p_cache p_format]. rewrite map_app. cbn [map fst].
  split; [intros id H; apply in_app_iff in H as [H|[<-|[]]]; [pose proof (H1 _ H)|]; lia|]. split.
  { apply NoDup_rev in H2. rewrite <- (rev_involutive (map fst (p_args p) ++ [p_named p])). apply NoDup_rev. rewrite rev_app_distr. cbn [rev app]. constructor; [|exact H2].
    rewrite <- in_rev. intros H. pose proof (H1 _ H). lia. }
  split.
  - intros e' id H. apply in_app_iff. destruct (HC _ _ H) as [K| ->]; [left; eapply H3, K|right; left; reflexivity].
  - exists (ids ++ [p_named p]). split; [|intros id; rewrite !in_app_iff, H5; reflexivity]. rewrite map_app. apply format_app; [exact H4|apply format_hole].
Qed.
Lemma ready_named inp r wrapped cacheable p : ready p -> ready (named_expression inp r wrapped cacheable p).
Proof.
  intros H. unfold named_expression. destruct (cache_get _ (p_cache p)) as [id|] eqn:E.
  - destruct cacheable; [|apply ready_new; [exact H|intros e' id' K; left; exact K]].
    destruct H as (H1 & H2 & H3 & ids & H4 & H5). split; [exact H1|]. split; [exact H2|]. split; [exact H3|]. exists (ids ++ [id]). split.
    + cbn [p_format]. rewrite map_app. apply format_app; [exact H4|apply format_hole].
    + intros id'. rewrite in_app_iff, H5. cbn [p_args]. split; [intros [K|[<-|[]]]; [exact K|]|intros K; left; exact K].
      apply cache_in in E as [e E]. eapply H3, E.
  - apply ready_new; [exact H|]. intros e' id' [[= _ <-]|K]; [right; reflexivity|left; exact K].
Qed.
Lemma ready_loop inp m : forall ws p p', ready p -> format_loop inp m ws p = Ok p' -> ready p'.
Proof.
  induction ws as [|[s|e|r wr] ws IH]; intros p p' H E; cbn [format_loop] in E.
  - injection E as <-. exact H.
  - eapply IH; [|exact E]. apply ready_text, H.
  - apply rbind_inv in E as ([r wr] & _ & E). eapply IH; [|exact E]. apply ready_named, H.
  - eapply IH; [|exact E]. apply ready_named, H.
Qed.
Lemma names_nodup l : NoDup l -> NoDup (map arg_name l).
Proof.
  induction 1 as [|x l Hx H IH]; cbn [map]; constructor; [|exact IH]. intros K. apply in_map_iff in K as (y & Ey & Hy). apply arg_name_inj in Ey. subst y. exact (Hx Hy).
Qed.
Definition fit (x : str * list (nat * rexpr)) : Prop := fits (fst x) (map (fun a => arg_name (fst a)) (snd x)).
Lemma prepare_fit inp m ws n z f args n' : prepare_format inp m ws n = Ok (z, FmtParts f args, n') -> fit (f, args).
Proof.
  unfold prepare_format. destruct ws as [|w ws]; [discriminate|]. destruct (all_lits (w :: ws)); [discriminate|]. intros E. apply rbind_inv in E as (p & E & Q). injection Q as <- <- <- <-.
  apply ready_loop in E as (_ & H2 & _ & ids & H4 & H5).
  - exists (map arg_name ids). split; [exact H4|]. cbn [fst snd]. rewrite <- (map_map fst arg_name). split; [apply names_nodup, H2|].
    intros x. split; intros H; apply in_map_iff in H as (id & <- & H); apply in_map, H5, H.
  - split; [intros id []|]. split; [constructor|]. split; [intros e id []|]. exists []. split; [constructor|reflexivity].
Qed.

(** ** Statements *)
Section Any.
  Variable W : str * list (nat * rexpr) -> Prop.
  Definition cok (code : list stmt) : Prop := Forall W (all_formats code).
  Lemma all_formats_app x y : all_formats (x ++ y) = all_formats x ++ all_formats y.
  Proof. induction x as [|s x IH]; [reflexivity|]. cbn [app all_formats]. rewrite IH. apply app_assoc. Qed.
  Lemma cok_app x y : cok x -> cok y -> cok (x ++ y).
  Proof. unfold cok. rewrite all_formats_app. intros H1 H2. apply Forall_app. auto. Qed.
  Lemma cok_one s : Forall W (formats s) -> cok [s].
  Proof. intros H. unfold cok. cbn [all_formats]. rewrite app_nil_r. exact H. Qed.
  Lemma cok_emit st s : Forall W (formats s) -> cok (emit st [s]).
  Proof. intros H. unfold emit. destruct (o_discard st); [constructor|apply cok_one, H]. Qed.
  Lemma cok_around st s l : Forall W (formats s) -> cok l -> cok (emit_around st s l).
  Proof. intros H1 H2. unfold emit_around. destruct (o_discard st); [exact H2|apply cok_one, H1]. Qed.
  Lemma cok_concat l : Forall cok l -> cok (concat l).
  Proof. induction 1; cbn [concat]; [constructor|apply cok_app; assumption]. Qed.
  Lemma cok_inner {A} (l : list (A * list stmt)) : Forall (fun y => cok (snd y)) l -> Forall W (concat (map (fun b => match b with (_, body) => all_formats body end) l)).
  Proof. induction 1 as [|[a c] l H1 H2 IH]; cbn [map concat]; [constructor|]. apply Forall_app. split; [exact H1|exact IH]. Qed.
  Lemma cok_snd {A} (l : list (A * list stmt)) : Forall (fun y => cok (snd y)) l -> cok (concat (map snd l)).
  Proof. intros H. apply cok_concat. apply Forall_map. exact H. Qed.

  (** ** The generator *)
  Definition gok (r : gres gen) : Prop := gd true (fun x : gen => cok (fst (fst x))) r.
  Notation gd_any := GroupGen.gd_any.
  Notation gd_of := GroupGen.gd_of.
  Variables (inp : ginput) (contexts : list (str * context)) (find : str -> str -> res str).
  Hypothesis HW : forall m ws n z f args n', prepare_format inp m ws n = Ok (z, FmtParts f args, n') -> W (f, args).
  Definition parts_ok (p : wparts) : Prop := match p with FmtParts f args => W (f, args) | _ => True end.
  Lemma gd_prepare m ws n : gd true (fun x : N * wparts * nat => parts_ok (snd (fst x))) (of_res (prepare_format inp m ws n)).
  Proof. apply gd_of. intros [[z p] n'] E. cbn [fst snd]. destruct p; try exact I. eapply HW, E. Qed.
  Ltac any := eapply gd_bind; [apply gd_any|].
  Lemma gok_write st : gok (write_buf_writable inp st).
  Proof.
    unfold write_buf_writable, gok. eapply gd_bind; [apply gd_prepare|]. intros [[z ps] nm] H. cbn [fst snd] in H. destruct ps.
    - constructor.
    - any. intros _ _. apply cok_emit. constructor.
    - destruct (63 <=? o_indent st); [exact I|]. any. intros _ _. apply cok_emit. repeat constructor. exact H.
  Qed.
  Lemma gok_let w var val st : gok (write_let inp w var val st).
  Proof.
    unfold write_let, gok. destruct val as [e|].
    - any. intros r _. any. intros sh _. eapply (gd_bind true (fun x : gen => cok (fst (fst x)))); [destruct sh; [apply gok_write|constructor]|].
      intros [[c z] s] C. cbn [fst] in C. cbv zeta. any. intros _ _. any. intros [p m] _. cbn [fst]. apply cok_app; [exact C|]. apply cok_emit.
      match goal with |- context [if ?x then SLet _ _ else _] => destruct x end; constructor.
    - eapply gd_bind; [apply gok_write|]. intros [[c z] s] C. any. intros _ _. any. intros [p m] _. apply cok_app; [exact C|]. apply cok_emit. constructor.
  Qed.
  Lemma gok_loop f l h w1 v it c w2 w3 st : (forall st, gok (f st)) -> (forall st, gok (l st)) -> gok (write_loop inp f l h w1 v it c w2 w3 st).
  Proof.
    intros H1 H2. unfold write_loop, gok. any. intros r _. eapply gd_bind; [apply gok_write|]. intros [[c0 z0] s0] C0. cbn [fst] in C0.
    any. intros _ _. any. intros _ _. any. intros [flt s1] _. any. intros _ _. any. intros [p m] _. any. intros _ _.
    eapply gd_bind; [apply H1|]. intros [[c1 z1] s2] C1. cbn [fst] in C1. eapply gd_bind; [apply gok_write|]. intros [[c1' z1'] s3] C1'. cbn [fst] in C1'.
    any. intros s4 _. any. intros s5 _.
    eapply (gd_bind true (fun x : list stmt * list stmt * N * gst => cok (fst (fst (fst x))) /\ cok (snd (fst (fst x))))).
    { destruct h.
      - any. intros _ _. eapply gd_bind; [apply H2|]. intros [[c2 z2] s6] C2. eapply gd_bind; [apply gok_write|]. intros [[c2' z2'] s7] C2'. any. intros s8 _. any. intros s9 _.
        split; [apply cok_app; assumption|constructor].
      - eapply gd_bind; [apply gok_write|]. intros [[c2' z2'] s7] C2'. split; [constructor|exact C2']. }
    intros [[[ce ct] z2] s6] (CE & CT). cbn [fst snd] in CE, CT. any. intros s7 _. any. intros s8 _. cbn [gd fst]. apply cok_app; [exact C0|]. apply cok_around.
    - pose proof (cok_app _ _ (cok_app _ _ C1 C1') (cok_app _ _ CE CT)) as K. unfold cok in K. rewrite !all_formats_app in K. cbn [formats].
      change (Forall W (all_formats (c1 ++ c1') ++ all_formats ce ++ all_formats ct)). rewrite all_formats_app. exact K.
    - repeat apply cok_app; assumption.
  Qed.
  Lemma gok_filter f w1 fn a w2 st : (forall st, gok (f st)) -> gok (write_filter_block inp f w1 fn a w2 st).
  Proof.
    intros H1. unfold write_filter_block, gok. any. intros var _. eapply gd_bind; [apply H1|]. intros [[c z] s] C. cbn [fst] in C.
    eapply gd_bind; [apply gd_prepare|]. intros [[wz ps] nm] H. cbn [fst snd] in H. destruct ps as [|x|x y]; [exact C| |].
    - any. intros _ _. any. intros _ _. cbv zeta. any. intros [r wr] _. any. intros m _. apply cok_app; [exact C|]. apply cok_emit. constructor.
    - any. intros _ _. any. intros _ _. cbv zeta. any. intros [r wr] _. any. intros m _. apply cok_app; [exact C|]. apply cok_emit. repeat constructor. exact H.
  Qed.
  Section Lists.
    Variable f : node -> gst -> gres gen.
    Lemma gok_list : forall ns, (forall n, In n ns -> forall st, gok (f n st)) -> forall st, gok (gen_list f ns st).
    Proof.
      induction ns as [|n ns IH]; intros H st; cbn [gen_list]; [constructor|].
      eapply gd_bind; [apply H; left; reflexivity|]. intros [[c z] s] C1. eapply gd_bind; [apply IH; intros; apply H; right; assumption|].
      intros [[c' z'] s'] C2. apply cok_app; assumption.
    Qed.
    Lemma gok_branches w : forall cs, (forall w' t ns, In (Cond w' t ns) cs -> forall st, gok (gen_list f ns st)) ->
      forall first st, gd true (fun x => cok (fst (fst (fst (fst (fst x))))) /\ Forall (fun y => cok (snd y)) (snd (fst (fst (fst (fst x)))))) (gen_branches inp f w first cs st).
    Proof.
      induction cs as [|[w' t ns] cs IH]; intros H first st; cbn [gen_branches].
      - eapply gd_bind; [apply gok_write|]. intros [[c z] s] C1. any. intros s2 _. any. intros s3 _. split; [exact C1|constructor].
      - pose proof (H w' t ns (or_introl eq_refl)) as HB. eapply gd_bind; [apply gok_write|]. intros [[c z] s] C1. any. intros s2 _. any. intros [t' s3] _.
        eapply gd_bind; [apply HB|]. intros [[bd z'] s4] C4. eapply gd_bind; [apply IH; intros w0 t0 n0 K; eapply H; right; exact K|].
        intros [[[[[a r] z2] sz] he] s5] (C5 & B5). cbn [fst snd] in *. split; [exact C1|]. constructor; [|exact B5]. apply cok_app; assumption.
    Qed.
    Lemma gok_arms w : forall cs, (forall w' t ns, In (When w' t ns) cs -> forall st, gok (gen_list f ns st)) ->
      forall first st, gd true (fun x => cok (fst (fst (fst (fst x)))) /\ Forall (fun a => cok (snd a)) (snd (fst (fst x)))) (gen_arms inp f w first cs st).
    Proof.
      induction cs as [|[w' t ns] cs IH]; intros H first st; cbn [gen_arms].
      - eapply gd_bind; [apply gok_write|]. intros [[c z] s] C1. any. intros s2 _. any. intros s3 _. split; [exact C1|constructor].
      - eapply (gd_bind true (fun x : gen => cok (fst (fst x)))).
        { destruct first; [constructor|]. eapply gd_bind; [apply gok_write|]. intros [[c z] s] C1. any. intros s2 _. any. intros s3 _. exact C1. }
        intros [[c z] s] C1. any. intros _ _. any. intros [p m] _.
        eapply gd_bind; [eapply H; left; reflexivity|]. intros [[bd z'] s4] C4. eapply gd_bind; [apply IH; intros w0 t0 n0 K; eapply H; right; exact K|].
        intros [[[[a z2] r] sz] s5] (C5 & B5). cbn [fst snd] in *. split; [exact C1|]. constructor; [apply cok_app; assumption|exact B5].
    Qed.
  End Lists.
  Section Step.
    Variable expand : option heritage -> context -> list node -> level -> gst -> gres gen.
    Hypothesis HX : forall her ctx ns lv st, gok (expand her ctx ns lv st).
    Variables (her : option heritage) (ctx : context).
    Lemma gok_block name outer st : gok (write_block inp expand her ctx name outer st).
    Proof.
      unfold write_block, gok. any. intros cur _. eapply gd_bind; [apply gok_write|]. intros [[c z] s] C1. cbn [fst] in C1.
      cbv zeta. destruct her as [h|]; [|exact I]. destruct (get (fst cur) (h_blocks h)) as [defs|]; [|exact I]. destruct (nth_error defs (snd cur)) as [[cc d]|]; [|exact I].
      eapply gd_bind; [apply HX|]. intros [[c1 z1] s1] C2. eapply (gd_bind true (fun x : gen => cok (fst (fst x)))).
      { destruct (ch_is_current_empty (s_locals s1)); [constructor|apply gok_write]. }
      intros [[c2 z2] s2] C3. cbn [gd fst]. repeat apply cok_app; assumption.
    Qed.
    Lemma gok_call w scope name args st : gok (write_call inp contexts expand her ctx w scope name args st).
    Proof.
      unfold write_call. destruct (str_eqb name (lit "super")); [apply gok_block|]. unfold gok. any. intros [def own_ctx] _.
      eapply gd_bind; [apply gok_write|]. intros [[c z] s] C1. cbn [fst] in C1. any. intros _ _.
      destruct (negb (Nat.eqb (length args) (length (k_args def)))); [exact I|]. any. intros nm _. any. intros [[m ns] vs] _. any. intros _ _. cbv zeta.
      eapply gd_bind; [apply HX|]. intros [[c1 z1] s1] C2. cbn [fst] in C2. eapply gd_bind; [apply gok_write|]. intros [[c2 z2] s2] C3. cbn [fst] in C3.
      any. intros s3 _. any. intros s4 _. cbn [gd fst]. apply cok_app; [exact C1|].
      match goal with |- cok (emit_around _ (SBlock ?l) _) => assert (K : cok l) end; [|apply cok_around; [exact K|apply cok_app; assumption]].
      apply cok_app; [|apply cok_app; assumption]. destruct ns; [constructor|]. apply cok_emit. constructor.
    Qed.
    Lemma gok_include w path st : gok (write_include inp contexts find expand ctx w path st).
    Proof.
      unfold write_include, gok. eapply gd_bind; [apply gok_write|]. intros [[c z] s] C1. cbn [fst] in C1. any. intros q _. any. intros _ _.
      destruct (get q contexts) as [cc|]; [|exact I]. cbv zeta. any. intros h _. eapply gd_bind; [apply HX|]. intros [[c1 z1] s1] C2.
      eapply gd_bind; [apply gok_write|]. intros [[c2 z2] s2] C3. cbn [gd fst]. apply cok_app; [exact C1|]. apply cok_app; [|apply cok_app; assumption]. apply cok_emit. constructor.
    Qed.
    Lemma gok_node : forall n lv st, gok (handle_node inp contexts find expand her ctx lv n st).
    Proof.
      induction n using node_ind_all; intros lv st; cbn [handle_node]; unfold gok.
      - destruct n; try contradiction; cbn [handle_node].
        + any. intros s _. constructor.
        + constructor.
        + constructor.
        + apply gok_call.
        + apply gok_let.
        + destruct (top_level lv); [constructor|exact I].
        + apply gok_include.
        + destruct (top_level lv); [constructor|exact I].
        + any. intros s _. constructor.
        + eapply gd_bind; [apply gok_write|]. intros [[c z] s] C1. any. intros _ _. apply cok_app; [exact C1|]. apply cok_emit. constructor.
        + eapply gd_bind; [apply gok_write|]. intros [[c z] s] C1. any. intros _ _. apply cok_app; [exact C1|]. apply cok_emit. constructor.
      - eapply gd_bind.
        + apply gok_branches. intros w' t ns Hc s. rewrite Forall_forall in H. specialize (H _ Hc). cbn in H. rewrite Forall_forall in H. apply gok_list. intros n Hn s'. apply H, Hn.
        + intros [[[[[c br] z] sz] he] s] (C1 & B1). cbn [fst snd] in C1, B1. any. intros z' _. cbn [gd fst]. apply cok_app; [exact C1|].
          apply cok_around; [exact (cok_inner _ B1)|apply cok_snd, B1].
      - eapply gd_bind; [apply gok_write|]. intros [[c z] s] C1. cbn [fst] in C1. any. intros r _. any. intros _ _. eapply gd_bind.
        + apply gok_arms. intros w' t ns Hc s0. rewrite Forall_forall in H. specialize (H _ Hc). cbn in H. rewrite Forall_forall in H. apply gok_list. intros n Hn s'. apply H, Hn.
        + intros [[[[c1 z1] ar] sz] s2] (C2 & B2). cbn [fst snd] in C2, B2. any. intros s3 _. any. intros z' _. cbn [gd fst]. apply cok_app; [exact C1|].
          apply cok_around; [exact (cok_inner _ B2)|apply cok_snd, B2].
      - rewrite Forall_forall in *. apply gok_loop; intros s; apply gok_list; auto.
      - apply gok_block.
      - destruct (top_level lv); [constructor|exact I].
      - rewrite Forall_forall in *. apply gok_filter. intros s. apply gok_list. auto.
    Qed.
    Lemma gok_nodes ns lv st : gok (handle_nodes inp contexts find expand her ctx ns lv st).
    Proof.
      unfold handle_nodes, gok. eapply gd_bind; [apply gok_list; intros n _ s; apply gok_node|].
      intros [[c z] s] C1. destruct (top_level lv); [|exact C1]. cbv zeta. eapply gd_bind; [apply gok_write|]. intros [[c' z'] s'] C2. apply cok_app; assumption.
    Qed.
  End Step.
  Lemma gok_handle : forall fuel her ctx ns lv st, gok (handle inp contexts find fuel her ctx ns lv st).
  Proof. induction fuel as [|f IH]; intros her ctx ns lv st; [reflexivity|]. cbn [handle]. apply gok_nodes, IH. Qed.
End Any.

Lemma build_any (W : str * list (nat * rexpr) -> Prop) inp find fuel templates code z :
  (forall m ws n z f args n', prepare_format inp m ws n = Ok (z, FmtParts f args, n') -> W (f, args)) ->
  build_template inp find fuel templates = GOk (code, z) -> Forall W (all_formats code).
Proof.
  intros HW E. unfold build_template in E. apply gbind_inv in E as (contexts & _ & E). destruct (get (f_path inp) contexts) as [ctx|]; [|discriminate E]. apply gbind_inv in E as (her & _ & E).
  unfold impl_template in E. cbv zeta in E. apply gbind_inv in E as ([[c z'] s] & E3 & E). cbv beta iota in E.
  match type of E3 with handle _ _ _ _ _ ?x ?y _ _ = _ => pose proof (gok_handle W inp contexts find HW fuel her x y LTop (initial inp 2)) as R end. rewrite E3 in R. cbn [gok gd fst] in R.
  apply gbind_inv in E as (u & _ & E). apply gbind_inv in E as (s1 & _ & E). apply gbind_inv in E as (u2 & _ & E). apply gbind_inv in E as (s2 & _ & E). injection E as <- <-. exact R.
Qed.
