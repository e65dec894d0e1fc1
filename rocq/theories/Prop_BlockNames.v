(** * The names of blocks do not matter: C75.  No definition here models code in /repo. *)
From Coq Require Import ZArith Lia.
From Verif Require Import Base Ws Config Ast ParseNode GenExpr Heritage Gen HeritageSpec HeritageFacts RexprFacts PanicTop EndFacts TreeSpec Order OrderFacts Prop_Rename.
Local Open Scope N_scope.

(** Other names for blocks, everywhere in a template *)
Section Blocks.
Variable b : str -> str.
Fixpoint bren (n : node) : node :=
  match n with
  | NBlockDef w1 x ns w2 => NBlockDef w1 (b x) (map bren ns) w2
  | NMacro w1 name args ns w2 => NMacro w1 name args (map bren ns) w2
  | NIf w cs => NIf w (map (fun c => match c with Cond w' t ns => Cond w' t (map bren ns) end) cs)
  | NMatch w1 e arms w2 => NMatch w1 e (map (fun c => match c with When w' t ns => When w' t (map bren ns) end) arms) w2
  | NLoop w1 v it c body w2 els w3 => NLoop w1 v it c (map bren body) w2 (map bren els) w3
  | NFilterBlock w1 x args ns w2 => NFilterBlock w1 x args (map bren ns) w2
  | _ => n
  end.
(** The block asked for gets its other name, too. *)
Definition binp (inp : ginput) : ginput :=
  {| f_escaper := f_escaper inp; f_escapers := f_escapers inp; f_json := f_json inp; f_ws := f_ws inp; f_block := option_map b (f_block inp); f_path := f_path inp |}.
Hypothesis b_inj : forall x y, b x = b y -> x = y.

(** ** Contexts *)
Definition blk (d : block_def) : block_def := {| b_ws1 := b_ws1 d; b_name := b (b_name d); b_nodes := map bren (b_nodes d); b_ws2 := b_ws2 d |}.
Definition mac (d : macro_def) : macro_def := {| k_ws1 := k_ws1 d; k_name := k_name d; k_args := k_args d; k_nodes := map bren (k_nodes d); k_ws2 := k_ws2 d |}.
Definition bctx (c : context) : context :=
  {| c_nodes := map bren (c_nodes c); c_extends := c_extends c; c_blocks := mapk b blk (c_blocks c); c_macros := mapk idk mac (c_macros c); c_imports := c_imports c |}.
Definition bdef (x : context * block_def) : context * block_def := (bctx (fst x), blk (snd x)).
Definition bblocks := mapk b (map bdef).
Definition bher (h : heritage) : heritage := {| h_root := bctx (h_root h); h_blocks := bblocks (h_blocks h) |}.
Definition bctxs := mapk idk bctx.
Lemma merge_b o c : merge_context (bctx o) (bctx c) = bctx (merge_context o c).
Proof. unfold merge_context, bctx. cbn [c_nodes c_extends c_blocks c_macros c_imports]. rewrite !merged_mapk by apply id_inj. reflexivity. Qed.
Lemma push_b c : forall l bs, fold_left (fun bs x => push_block (bctx c) x bs) (mapk b blk l) (bblocks bs) = bblocks (fold_left (fun bs x => push_block c x bs) l bs).
Proof.
  induction l as [|[k d] l IH]; intros bs; [reflexivity|]. cbn [mapk map fold_left fst snd]. rewrite <- IH. f_equal. unfold push_block, bblocks. cbn [fst snd].
  rewrite get_mapk by exact b_inj. rewrite <- put_mapk by exact b_inj. f_equal. destruct (get k bs); cbn [option_map]; [rewrite map_app|]; reflexivity.
Qed.
Lemma get_ctxs contexts p : get p (bctxs contexts) = option_map bctx (get p contexts).
Proof. exact (get_mapk idk bctx p contexts id_inj). Qed.
Lemma get_bs h k : get (b k) (h_blocks (bher h)) = option_map (map bdef) (get k (h_blocks h)).
Proof. exact (get_mapk b (map bdef) k (h_blocks h) b_inj). Qed.
Lemma heritage_loop_b contexts : forall fuel c bs, heritage_loop fuel (bctxs contexts) (bctx c) (bblocks bs) = gm bher (heritage_loop fuel contexts c bs).
Proof.
  induction fuel as [|f IH]; intros c bs; cbn [heritage_loop bctx c_extends]; destruct (c_extends c) as [p|] eqn:E; try reflexivity.
  rewrite get_ctxs. destruct (get p contexts) as [d|]; cbn [option_map gm]; [|reflexivity]. rewrite <- IH. f_equal. apply push_b.
Qed.
Lemma heritage_new_b contexts fuel c : heritage_new fuel (bctxs contexts) (bctx c) = gm bher (heritage_new fuel contexts c).
Proof.
  unfold heritage_new. rewrite <- heritage_loop_b. f_equal. cbn [bctx c_blocks]. unfold bblocks, mapk. rewrite !map_map. apply map_ext. intros [k d]. reflexivity.
Qed.

(** ** The state holds the name of the current block *)
Definition up (st : gst) : gst :=
  {| s_locals := s_locals st; s_ws := s_ws st; s_super := option_map (fun x => (b (fst x), snd x)) (s_super st); s_buf := s_buf st; s_discard := s_discard st; s_named := s_named st;
     o_indent := o_indent st; o_discard := o_discard st |}.
Definition us {A} (x : A * gst) : A * gst := (fst x, up (snd x)).
Lemma bind_up {A B C D} (f : A -> C) (g : B -> D) x x' k k' : x' = gm f x -> (forall a, k' (f a) = gm g (k a)) -> gbind x' k' = gm g (gbind x k).
Proof. intros -> H. destruct x; cbn [gm gbind]; try reflexivity. apply H. Qed.
Lemma bind_same {A B D} (g : B -> D) (x : gres A) k k' : (forall a, k' a = gm g (k a)) -> gbind x k' = gm g (gbind x k).
Proof. intros H. destruct x; cbn [gm gbind]; try reflexivity. apply H. Qed.
Section Gen.
  Variables (inp : ginput) (contexts : list (str * context)) (find : str -> str -> res str).
  Notation inp' := (binp inp).
  Lemma flush_up l st : do_flush_ws inp' l (up st) = up (do_flush_ws inp l st).
  Proof. unfold do_flush_ws. cbn [binp f_ws up s_ws]. destruct (flush_ws (f_ws inp) l (s_ws st)). unfold push_lits, push. cbn [set_ws up s_discard]. destruct (s_discard st); reflexivity. Qed.
  Lemma prep_up l st : do_prepare_ws inp' l (up st) = up (do_prepare_ws inp l st).
  Proof. reflexivity. Qed.
  Lemma ws_up w st : do_handle_ws inp' w (up st) = up (do_handle_ws inp w st).
  Proof. unfold do_handle_ws. rewrite flush_up. reflexivity. Qed.
  Lemma lit_up l st : do_visit_lit l (up st) = gm up (do_visit_lit l st).
  Proof. unfold do_visit_lit. cbn [up s_ws]. destruct (visit_lit l (s_ws st)) as [[out w]|]; [|reflexivity]. cbn [gm]. unfold push_lits, push. cbn [set_ws up s_discard]. destruct (s_discard st); reflexivity. Qed.
  Lemma push_up w st : push w (up st) = up (push w st).
  Proof. unfold push. cbn [up s_discard]. destruct (s_discard st); reflexivity. Qed.
  Lemma line_up st : line (up st) = line st.
  Proof. reflexivity. Qed.
  Lemma dedent_up st : dedent (up st) = gm up (dedent st).
  Proof. unfold dedent. cbn [up o_indent]. destruct (o_indent st =? 0); reflexivity. Qed.
  Lemma open_up st : open_brace (up st) = up (open_brace st).
  Proof. unfold open_brace. cbn [up o_discard]. destruct (o_discard st); reflexivity. Qed.
  Lemma close_up st : close_brace (up st) = gm up (close_brace st).
  Proof.
    unfold close_brace. cbn [up o_discard]. destruct (o_discard st); [reflexivity|]. eapply bind_up; [apply dedent_up|]. intros s. rewrite line_up. apply bind_same. reflexivity.
  Qed.
  Lemma locals_up st : s_locals (up st) = s_locals st. Proof. reflexivity. Qed.
  Lemma set_locals_up m st : set_locals m (up st) = up (set_locals m st). Proof. reflexivity. Qed.
  Lemma set_buf_up m st : set_buf m (up st) = up (set_buf m st). Proof. reflexivity. Qed.
  Lemma set_named_up m st : set_named m (up st) = up (set_named m st). Proof. reflexivity. Qed.
  Lemma set_indent_up m st : set_indent m (up st) = up (set_indent m st). Proof. reflexivity. Qed.
  Lemma push_locals_up st : push_locals (up st) = up (push_locals st). Proof. reflexivity. Qed.
  Lemma emit_up st s : emit (up st) s = emit st s. Proof. reflexivity. Qed.
  Lemma around_up st s i : emit_around (up st) s i = emit_around st s i. Proof. reflexivity. Qed.
  Lemma pop_up st : pop_locals (up st) = gm up (pop_locals st).
  Proof. unfold pop_locals. rewrite locals_up. apply bind_same. reflexivity. Qed.
  Lemma root_inp : visit_expr_root inp' = visit_expr_root inp. Proof. reflexivity. Qed.
  Lemma expr_inp : visit_expr inp' = visit_expr inp. Proof. reflexivity. Qed.
  Lemma format_loop_inp m : forall ws p, format_loop inp' m ws p = format_loop inp m ws p.
  Proof.
    induction ws as [|w ws IH]; intros p; [reflexivity|]. cbn [format_loop]. destruct w; [apply IH| |apply IH]. rewrite expr_inp. destruct (visit_expr inp m e) as [[r wr]| |]; cbn [rbind]; [apply IH|reflexivity..].
  Qed.
  Lemma format_inp m ws n : prepare_format inp' m ws n = prepare_format inp m ws n. Proof. unfold prepare_format. rewrite format_loop_inp. reflexivity. Qed.
  Lemma args_inp : bind_args inp' = bind_args inp. Proof. reflexivity. Qed.
  Ltac norm := repeat (rewrite ?ws_up, ?flush_up, ?prep_up, ?push_up, ?open_up, ?set_locals_up, ?set_buf_up, ?set_named_up, ?set_indent_up, ?push_locals_up, ?locals_up, ?line_up, ?emit_up, ?around_up, ?root_inp, ?expr_inp, ?format_inp, ?args_inp).
  Lemma wbw_up st : write_buf_writable inp' (up st) = gm us (write_buf_writable inp st).
  Proof.
    unfold write_buf_writable. norm. cbn [up s_buf s_named o_indent]. change (prepare_format inp (s_locals st) (s_buf st) (s_named st)) with (prepare_format inp (s_locals st) (s_buf st) (s_named st)).
    apply bind_same. intros [[size parts] named]. cbv zeta. destruct parts; [reflexivity| |].
    - change (line (up st)) with (line st). apply bind_same. reflexivity.
    - destruct (63 <=? o_indent st); [reflexivity|]. change (line (up st)) with (line st). apply bind_same. reflexivity.
  Qed.
  Ltac wbw := eapply bind_up; [apply wbw_up|]; intros [[? ?] ?]; cbn [us fst snd]; norm.
  Ltac same := apply bind_same; intros; norm.
  Ltac cl := eapply bind_up; [apply close_up|]; intros ?; norm.
  Ltac po := eapply bind_up; [apply pop_up|]; intros ?; norm.
  Lemma let_up w var val st : write_let inp' w var val (up st) = gm us (write_let inp w var val st).
  Proof.
    unfold write_let. norm. cbv zeta. destruct val as [val|].
    - norm. same. same. eapply bind_up with (f := us); [destruct a0; [apply wbw_up|reflexivity]|]. intros [[c z] s]. cbn [us fst snd]. norm. same. same. destruct a2. reflexivity.
    - wbw. same. same. destruct a0. reflexivity.
  Qed.
  Lemma test_up first t st : if_test inp' first t (up st) = gm us (if_test inp first t st).
  Proof.
    unfold if_test. destruct t as [t|].
    - eapply bind_up with (f := up); [destruct first; [reflexivity|apply dedent_up]|]. intros s. norm. same. destruct (ct_target t) as [p|].
      + destruct (ct_expr t); norm; try (same; same; destruct a1; reflexivity). destruct (_ || _); norm; [same; same; destruct a1 as [p' m]; same; reflexivity|same; same; destruct a1; reflexivity].
      + same. reflexivity.
    - eapply bind_up; [apply dedent_up|]. intros s. norm. same. reflexivity.
  Qed.
  Lemma list_up f g : forall ns, (forall n, In n ns -> forall st, f (bren n) (up st) = gm us (g n st)) -> forall st, gen_list f (map bren ns) (up st) = gm us (gen_list g ns st).
  Proof.
    induction ns as [|n ns IH]; intros H st; [reflexivity|]. cbn [map gen_list]. eapply bind_up; [apply H; left; reflexivity|]. intros [[c z] s]. cbn [us fst snd].
    eapply bind_up; [apply IH; intros; apply H; right; assumption|]. intros [[c' z'] s']. reflexivity.
  Qed.
  Lemma branches_up f g w : forall cs, (forall w' t ns, In (Cond w' t ns) cs -> forall st, gen_list f (map bren ns) (up st) = gm us (gen_list g ns st)) ->
    forall first st, gen_branches inp' f w first (map (fun c => match c with Cond w' t ns => Cond w' t (map bren ns) end) cs) (up st) = gm us (gen_branches inp g w first cs st).
  Proof.
    induction cs as [|[w' t ns] cs IH]; intros H first st; cbn [map gen_branches]; norm; cbv zeta.
    - wbw. cl. po. reflexivity.
    - wbw. eapply bind_up with (f := up); [destruct first; [reflexivity|apply pop_up]|]. intros s. norm. eapply bind_up; [apply test_up|]. intros [t' s2]. cbn [us fst snd]. norm.
      eapply bind_up; [eapply H; left; reflexivity|]. intros [[bd z'] s3]. cbn [us fst snd]. eapply bind_up; [apply IH; intros w0 t0 n0 K; eapply H; right; exact K|].
      intros [[[[[a1 a2] a3] a4] a5] a6]. reflexivity.
  Qed.
  Lemma arms_up f g w : forall cs, (forall w' t ns, In (When w' t ns) cs -> forall st, gen_list f (map bren ns) (up st) = gm us (gen_list g ns st)) ->
    forall first st, gen_arms inp' f w first (map (fun c => match c with When w' t ns => When w' t (map bren ns) end) cs) (up st) = gm us (gen_arms inp g w first cs st).
  Proof.
    induction cs as [|[w' t ns] cs IH]; intros H first st; cbn [map gen_arms]; norm; cbv zeta.
    - wbw. cl. po. reflexivity.
    - eapply bind_up with (f := us); [destruct first; [reflexivity|wbw; cl; po; reflexivity]|]. intros [[c z] s]. cbn [us fst snd]. norm. same. same. destruct a0 as [p m]. norm.
      eapply bind_up; [eapply H; left; reflexivity|]. intros [[bd z'] s3]. cbn [us fst snd]. eapply bind_up; [apply IH; intros w0 t0 n0 K; eapply H; right; exact K|].
      intros [[[[a1 a2] a3] a4] a5]. reflexivity.
  Qed.
  Lemma loop_up body body' els els' has w1 v it c w2 w3 st : (forall s, body' (up s) = gm us (body s)) -> (forall s, els' (up s) = gm us (els s)) ->
    write_loop inp' body' els' has w1 v it c w2 w3 (up st) = gm us (write_loop inp body els has w1 v it c w2 w3 st).
  Proof.
    intros HB HE. unfold write_loop. norm. cbv zeta. norm. same. wbw. same. same. eapply bind_up with (f := us).
    { destruct c as [c|]; [|reflexivity]. norm. same. destruct a2 as [p m]. same. po. reflexivity. }
    intros [flt s]. cbn [us fst snd]. norm. same. same. destruct a3 as [p m]. norm. replace (if has then line (up (open_brace (set_locals m (push_locals s)))) else GOk tt) with (if has then line (open_brace (set_locals m (push_locals s))) else GOk tt) by reflexivity.
    same. eapply bind_up; [apply HB|]. intros [[c1 z1] s1]. cbn [us fst snd]. norm. wbw. po. cl. eapply bind_up with (f := us).
    { destruct has; norm.
      - same. eapply bind_up; [apply HE|]. intros [[c2 z2] s2]. cbn [us fst snd]. norm. wbw. po. cl. reflexivity.
      - wbw. reflexivity. }
    intros [[[celse ctail] z2] s2]. cbn [us fst snd]. cl. po. reflexivity.
  Qed.
  Lemma filter_up body body' w1 x args w2 st : (forall s, body' (up s) = gm us (body s)) -> write_filter_block inp' body' w1 x args w2 (up st) = gm us (write_filter_block inp body w1 x args w2 st).
  Proof.
    intros HB. unfold write_filter_block. norm. cbv zeta. norm. same. eapply bind_up; [apply HB|]. intros [[c z] s]. cbn [us fst snd]. norm.
    set (s0 := do_flush_ws inp (ws_l w2) s). change (s_buf (up s0)) with (s_buf s0). change (s_named (up s0)) with (s_named s0). same. destruct a0 as [[wsize parts] named]. norm.
    destruct parts; [reflexivity| |]; cbn [up o_indent]; same; same; same; destruct a2 as [r wr]; norm; same; reflexivity.
  Qed.
  Section Step.
    Variables expand expand' : option heritage -> context -> list node -> level -> gst -> gres gen.
    Hypothesis HX : forall her ctx ns lv st, expand' (option_map bher her) (bctx ctx) (map bren ns) lv (up st) = gm us (expand her ctx ns lv st).
    Variables (her : option heritage) (ctx : context).
    Lemma eqb_b x y : str_eqb (b x) (b y) = str_eqb x y.
    Proof. apply eqb_inj. exact b_inj. Qed.
    Definition bcur (x : str * nat) : str * nat := (b (fst x), snd x).
    Lemma block_up name outer st : write_block inp' expand' (option_map bher her) (bctx ctx) (option_map b name) outer (up st) = gm us (write_block inp expand her ctx name outer st).
    Proof.
      unfold write_block. norm. cbv zeta. set (s0 := do_flush_ws inp (ws_l outer) st). clearbody s0. eapply bind_up with (f := bcur).
      { cbn [up s_super]. destruct name as [x|], (s_super s0) as [[prev g]|]; cbn [option_map fst snd]; try reflexivity. rewrite eqb_b. destruct (str_eqb x prev); reflexivity. }
      intros cur. wbw. destruct her as [h|]; cbn [option_map]; [|reflexivity]. cbn [bcur fst snd]. rewrite get_bs. destruct (get (fst cur) (h_blocks h)) as [defs|]; cbn [option_map]; [|reflexivity].
      rewrite nth_map. destruct (nth_error defs (snd cur)) as [[cc d]|]; cbn [option_map bdef fst snd]; [|reflexivity].
      assert (ES : match f_block inp', option_map b name with Some a, Some b0 => str_eqb a b0 | None, None => true | _, _ => false end = match f_block inp, name with Some a, Some b0 => str_eqb a b0 | None, None => true | _, _ => false end).
      { cbn [binp f_block]. destruct (f_block inp), name; cbn [option_map]; try reflexivity. apply eqb_b. }
      rewrite ES. match goal with |- context [?x && s_discard (up ?y)] => set (same := x); set (s1 := y) end. clearbody same. change (s_discard (up s1)) with (s_discard s1). rewrite merge_b.
      eapply bind_up with (f := us); [exact (HX (Some h) (merge_context ctx cc) (b_nodes d) LBlock {| s_locals := ch_empty; s_ws := prepare_ws (f_ws inp) (ws_r (b_ws1 d)) ws_init; s_super := Some cur;
                       s_buf := s_buf s1; s_discard := if same && s_discard s1 then false else s_discard s1; s_named := O; o_indent := o_indent s1; o_discard := if same && s_discard s1 then false else s_discard s1 |})|].
      intros [[c z] s2]. cbn [us fst snd]. norm. eapply bind_up with (f := us); [destruct (ch_is_current_empty (s_locals s2)); [reflexivity|apply wbw_up]|]. intros [[c2 z2] s3]. cbn [us fst snd]. norm. reflexivity.
    Qed.
    Lemma call_up w scope name args st : write_call inp' (bctxs contexts) expand' (option_map bher her) (bctx ctx) w scope name args (up st) = gm us (write_call inp contexts expand her ctx w scope name args st).
    Proof.
      unfold write_call. destruct (str_eqb name (lit "super")); [apply (block_up None)|]. eapply bind_up with (f := fun x => (mac (fst x), bctx (snd x))).
      { destruct scope as [x|].
        - cbn [bctx c_imports]. destruct (get x (c_imports ctx)) as [path|]; [|reflexivity]. rewrite get_ctxs. destruct (get path contexts) as [c|]; cbn [option_map]; [|reflexivity]. cbn [bctx c_macros].
          change name with (idk name) at 1. rewrite (get_mapk idk mac name) by exact id_inj. destruct (get name (c_macros c)); reflexivity.
        - cbn [bctx c_macros]. change name with (idk name) at 1. rewrite (get_mapk idk mac name) by exact id_inj. destruct (get name (c_macros ctx)); reflexivity. }
      intros [def c]. cbn [fst snd mac k_ws1 k_args k_nodes k_ws2]. norm. cbv zeta. wbw. same. destruct (negb (Nat.eqb (length args) (length (k_args def)))); [reflexivity|]. same. same. destruct a1 as [[m names] values]. norm.
      same. eapply bind_up; [apply HX|]. intros [[bd z] s2]. cbn [us fst snd]. norm. wbw. cl. po. reflexivity.
    Qed.
    Lemma include_up w path st : write_include inp' (bctxs contexts) find expand' (bctx ctx) w path (up st) = gm us (write_include inp contexts find expand ctx w path st).
    Proof.
      unfold write_include. norm. cbv zeta. wbw. change (f_path inp') with (f_path inp). same. same. rewrite get_ctxs. destruct (get a contexts) as [c|]; cbn [option_map]; [|reflexivity]. rewrite merge_b.
      set (m := merge_context ctx c). assert (EL : length (bctxs contexts) = length contexts) by apply map_length.
      eapply bind_up with (f := option_map bher).
      { rewrite EL, heritage_new_b. cbn [bctx c_blocks c_extends]. destruct (c_blocks m) as [|[k0 d0] l0]; cbn [mapk map]; [destruct (c_extends m); [|reflexivity]|]; destruct (heritage_new _ contexts m); reflexivity. }
      intros h. match goal with |- context [s_discard (up ?y)] => set (s1 := y) end.
      set (ch := {| s_locals := ch_with_parent (s_locals s1); s_ws := ws_init; s_super := None; s_buf := []; s_discard := s_discard s1; s_named := O; o_indent := o_indent s1; o_discard := o_discard s1 |}).
      eapply bind_up with (f := us); [destruct h as [h|]; [exact (HX (Some h) (h_root h) (c_nodes (h_root h)) LTop ch)|exact (HX None m (c_nodes m) LTop ch)]|].
      intros [[code z] s2]. cbn [us fst snd]. wbw. reflexivity.
    Qed.
    Lemma node_up : forall n lv st, handle_node inp' (bctxs contexts) find expand' (option_map bher her) (bctx ctx) lv (bren n) (up st) = gm us (handle_node inp contexts find expand her ctx lv n st).
    Proof.
      induction n using node_ind_all; intros lv st; cbn [bren handle_node].
      - destruct n; try contradiction; cbn [bren handle_node]; norm; try reflexivity.
        + eapply bind_up; [apply lit_up|]. reflexivity.
        + apply call_up.
        + apply let_up.
        + destruct (top_level lv); reflexivity.
        + apply include_up.
        + destruct (top_level lv); reflexivity.
        + eapply bind_up; [apply lit_up|]. intros s. norm. reflexivity.
        + wbw. same. reflexivity.
        + wbw. same. reflexivity.
      - eapply bind_up with (f := us); [apply branches_up|].
        { intros w' t ns Hc s. rewrite Forall_forall in H. specialize (H _ Hc). cbn in H. rewrite Forall_forall in H. apply list_up. intros n Hn s'. apply H, Hn. }
        intros [[[[[a1 a2] a3] a4] a5] a6]. cbn [us fst snd]. norm. same. reflexivity.
      - norm. cbv zeta. wbw. same. same. eapply bind_up with (f := us); [apply arms_up|].
        { intros w' t ns Hc s'. rewrite Forall_forall in H. specialize (H _ Hc). cbn in H. rewrite Forall_forall in H. apply list_up. intros n1 Hn s''. apply H, Hn. }
        intros [[[[b1 b2] b3] b4] b5]. cbn [us fst snd]. cl. same. reflexivity.
      - rewrite Forall_forall in *. replace (match map bren els with [] => false | _ => true end) with (match els with [] => false | _ => true end) by (destruct els; reflexivity). apply loop_up; intros s; apply list_up; auto.
      - exact (block_up (Some _) _ _).
      - norm. destruct (top_level lv); reflexivity.
      - rewrite Forall_forall in *. apply filter_up. intros s. apply list_up. auto.
    Qed.
    Lemma nodes_up ns lv st : handle_nodes inp' (bctxs contexts) find expand' (option_map bher her) (bctx ctx) (map bren ns) lv (up st) = gm us (handle_nodes inp contexts find expand her ctx ns lv st).
    Proof.
      unfold handle_nodes. eapply bind_up; [apply list_up; intros; apply node_up|]. intros [[c z] s]. cbn [us fst snd]. destruct (top_level lv); [|reflexivity].
      change (s_ws (up s)) with (s_ws s). destruct (next_ws (s_ws s)); norm; wbw; reflexivity.
    Qed.
  End Step.
  Lemma handle_up : forall fuel her ctx ns lv st, handle inp' (bctxs contexts) find fuel (option_map bher her) (bctx ctx) (map bren ns) lv (up st) = gm us (handle inp contexts find fuel her ctx ns lv st).
  Proof. induction fuel as [|f IH]; intros her ctx ns lv st; [reflexivity|]. cbn [handle]. apply nodes_up. exact IH. Qed.
  Lemma initial_up : initial inp' 2 = up (initial inp 2).
  Proof. unfold initial, up. cbn. destruct (f_block inp); reflexivity. Qed.
  Lemma gm_id {A} (x : gres A) : gm (fun a => a) x = x.
  Proof. destruct x; reflexivity. Qed.
  Lemma impl_up fuel her ctx : impl_template inp' (bctxs contexts) find fuel (option_map bher her) (bctx ctx) = impl_template inp contexts find fuel her ctx.
  Proof.
    rewrite <- (gm_id (impl_template inp contexts find fuel her ctx)). unfold impl_template. rewrite initial_up. cbv zeta. eapply bind_up with (f := us).
    - destruct her as [h|]; cbn [option_map]; [apply (handle_up fuel (Some h) (h_root h) (c_nodes (h_root h)))|apply (handle_up fuel None ctx (c_nodes ctx))].
    - intros [[c z] s]. cbn [us fst snd]. norm. same. cl. same. cl. reflexivity.
  Qed.
  Lemma from_up fuel : build_from inp' find fuel (bctxs contexts) = build_from inp find fuel contexts.
  Proof.
    unfold build_from. change (f_path inp') with (f_path inp). rewrite get_ctxs. destruct (get (f_path inp) contexts) as [c|]; cbn [option_map]; [|reflexivity].
    set (R := fun i c cs => let* h := heritage_new fuel cs c in match f_block i with
                            | Some b => match get b (h_blocks h) with None => GErr (lit "cannot find block") | Some _ => GOk (Some h) end
                            | None => GOk (Some h) end).
    assert (ER : R inp' (bctx c) (bctxs contexts) = gm (option_map bher) (R inp c contexts)).
    { unfold R. rewrite heritage_new_b. destruct (heritage_new fuel contexts c) as [h| | |]; cbn [gm gbind]; try reflexivity. cbn [binp f_block]. destruct (f_block inp) as [x|]; cbn [option_map]; [|reflexivity]. rewrite get_bs. destruct (get x (h_blocks h)); reflexivity. }
    assert (T : match c_blocks (bctx c), c_extends (bctx c) with [], None => GOk None | _, _ => R inp' (bctx c) (bctxs contexts) end =
                gm (option_map bher) (match c_blocks c, c_extends c with [], None => GOk None | _, _ => R inp c contexts end)).
    { rewrite ER. cbn [bctx c_blocks c_extends]. destruct (c_blocks c) as [|[k d] l]; cbn [mapk map]; [destruct (c_extends c); reflexivity|reflexivity]. }
    change (gbind (match c_blocks (bctx c), c_extends (bctx c) with [], None => GOk None | _, _ => R inp' (bctx c) (bctxs contexts) end) (fun her => impl_template inp' (bctxs contexts) find fuel her (bctx c)) =
            gbind (match c_blocks c, c_extends c with [], None => GOk None | _, _ => R inp c contexts end) (fun her => impl_template inp contexts find fuel her c)).
    rewrite T. destruct (match c_blocks c with [] => _ | _ :: _ => _ end) as [h|e| |]; cbn [gm gbind]; try reflexivity. apply impl_up.
  Qed.
End Gen.

(** ** Building the contexts *)
Section New.
  Variables (find : str -> str -> res str) (path : str).
  Lemma node_b top n c : context_node find path top (bren n) (bctx c) = rm (fun y => (bctx (fst y), map (map bren) (snd y))) (context_node find path top n c).
  Proof.
    destruct n; cbn [bren context_node]; try reflexivity.
    - cbn [rm fst snd]. rewrite !map_map. do 2 f_equal. apply map_ext. intros [w' t ns]. reflexivity.
    - cbn [rm fst snd]. rewrite !map_map. do 2 f_equal. apply map_ext. intros [w' t ns]. reflexivity.
    - destruct top; [|reflexivity]. cbn [bctx c_extends]. destruct (c_extends c); [reflexivity|]. destruct (find path0 path); reflexivity.
    - cbn [rm fst snd]. do 2 f_equal. unfold bctx. cbn [c_nodes c_extends c_blocks c_macros c_imports]. rewrite <- (put_mapk b blk) by exact b_inj. reflexivity.
    - destruct top; [|reflexivity]. destruct (find path0 path) as [p| |]; reflexivity.
    - destruct top; [|reflexivity]. cbn [rm fst snd]. do 2 f_equal. unfold bctx. cbn [c_nodes c_extends c_blocks c_macros c_imports]. rewrite <- (put_mapk idk mac) by exact id_inj. reflexivity.
  Qed.
  Lemma nodes_b top : forall ns c s, context_nodes find path top (map bren ns) (bctx c) (map (map bren) s) = rm (fun y => (bctx (fst y), map (map bren) (snd y))) (context_nodes find path top ns c s).
  Proof.
    induction ns as [|n ns IH]; intros c s; [reflexivity|]. cbn [map context_nodes]. rewrite node_b. destruct (context_node find path top n c) as [[c1 more]| |]; cbn [rm rbind fst snd]; try reflexivity.
    rewrite <- map_rev, <- map_app. apply IH.
  Qed.
  Lemma loop_b : forall f s f' top c, context_loop find f path top s c <> GFuel -> context_loop find f' path top (map (map bren) s) (bctx c) <> GFuel ->
    context_loop find f' path top (map (map bren) s) (bctx c) = gm bctx (context_loop find f path top s c).
  Proof.
    induction f as [|f IH]; intros [|ns s] f' top c H1 H2; try (destruct f'; reflexivity); [destruct H1; reflexivity|]. destruct f' as [|f']; [destruct H2; reflexivity|]. cbn [map context_loop] in *. rewrite nodes_b in *.
    destruct (context_nodes find path top ns c s) as [[c1 s1]| |]; cbn [rm of_res gbind fst snd gm] in *; try reflexivity. apply IH; assumption.
  Qed.
  Lemma new_b ns : context_new find path (map bren ns) = gm bctx (context_new find path ns).
  Proof.
    pose proof (context_new_ends find path ns) as E1. pose proof (context_new_ends find path (map bren ns)) as E2. unfold context_new in *.
    apply (loop_b _ [ns] _ true {| c_nodes := ns; c_extends := None; c_blocks := []; c_macros := []; c_imports := [] |}); assumption.
  Qed.
End New.
Definition bren_all (ts : list (str * list node)) : list (str * list node) := map (fun t => (fst t, map bren (snd t))) ts.
Lemma contexts_b find : forall ts, build_contexts find (bren_all ts) = gm bctxs (build_contexts find ts).
Proof.
  induction ts as [|[p ns] ts IH]; [reflexivity|]. cbn [bren_all map fst snd build_contexts]. rewrite new_b. destruct (context_new find p ns) as [c| | |]; cbn [gm gbind]; try reflexivity.
  change (map (fun t => (fst t, map bren (snd t))) ts) with (bren_all ts). rewrite IH. destruct (build_contexts find ts); reflexivity.
Qed.
End Blocks.

(** C75.  Blocks may have any other names, as long as different ones get different names, everywhere and in the block argument alike.  The
    generated code is the same.  So is the kind of the error; some messages in generator.rs:919-945 hold the name, which the model
    leaves out of them. *)
Theorem C75_block_names b inp find fuel ts : (forall x y, b x = b y -> x = y) -> build_template (binp b inp) find fuel (bren_all b ts) = build_template inp find fuel ts.
Proof.
  intros H. change (gbind (build_contexts find (bren_all b ts)) (build_from (binp b inp) find fuel) = gbind (build_contexts find ts) (build_from inp find fuel)).
  rewrite contexts_b by assumption. destruct (build_contexts find ts) as [cs|m| |]; cbn [gm gbind]; try reflexivity. apply from_up; assumption.
Qed.
Print Assumptions C75_block_names.

(** A child with nested blocks and super(), of which one block is asked for *)
Definition C75_b (x : str) : str := 98 :: x.
Definition C75_inp (block : option str) : ginput := {| f_escaper := lit "::askama::Html"; f_escapers := []; f_json := false; f_ws := Preserve; f_block := block; f_path := lit "m" |}.
Definition C75_text (s : str) : node := NLit {| lws := []; lval := s; rws := [] |}.
Definition C75_base : list node :=
  [C75_text (lit "<"); NBlockDef no_ws (lit "main") [C75_text (lit "base "); NBlockDef no_ws (lit "inner") [C75_text (lit "in")] no_ws] no_ws; C75_text (lit ">")].
Definition C75_page : list node :=
  [NExtends (lit "b"); NBlockDef no_ws (lit "main") [NCall no_ws None (lit "super") []; NExpr no_ws (Var (lit "x"))] no_ws; NBlockDef no_ws (lit "inner") [C75_text (lit "own")] no_ws].
Definition C75_all : list (str * list node) := [(lit "m", C75_page); (lit "b", C75_base)].
Definition C75_good (x : gres (list stmt * N)) : bool := match x with GOk (c, _) => negb (Nat.eqb (length c) 0) | _ => false end.
Example C75_example :
  bren_all C75_b C75_all <> C75_all /\
  (forall block, build_template (binp C75_b (C75_inp block)) (fun n _ => Ok n) 9 (bren_all C75_b C75_all) = build_template (C75_inp block) (fun n _ => Ok n) 9 C75_all) /\
  C75_good (build_template (C75_inp None) (fun n _ => Ok n) 9 C75_all) = true /\ C75_good (build_template (C75_inp (Some (lit "main"))) (fun n _ => Ok n) 9 C75_all) = true.
Proof.
  split; [vm_compute; discriminate|]. split; [|split; vm_compute; reflexivity]. intros block. apply C75_block_names. intros x y H. unfold C75_b in H. congruence.
Qed.
(** Two blocks must not get the same name, and the block asked for must get its new one. *)
Example C75_injective_example : build_template (C75_inp None) (fun n _ => Ok n) 9 (bren_all (fun _ => lit "a") C75_all) <> build_template (C75_inp None) (fun n _ => Ok n) 9 C75_all /\
  build_template (C75_inp (Some (lit "main"))) (fun n _ => Ok n) 9 (bren_all C75_b C75_all) <> build_template (C75_inp (Some (lit "main"))) (fun n _ => Ok n) 9 C75_all.
Proof. split; vm_compute; discriminate. Qed.
