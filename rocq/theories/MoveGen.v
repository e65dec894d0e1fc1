(** * Facts behind Prop_Move.v: the generator, with every path moved. *)
From Verif Require Import Base Ws Config Ast GenExpr Heritage Gen HeritageSpec HeritageFacts RexprFacts PanicTop EndFacts TreeSpec FlatFacts MoveSpec.
From Verif Require GroupGen OrderFacts.
From Coq Require Import Lia.
Local Open Scope N_scope.

(** ** What is required of the names in the tags *)
Section Any.
Variable Q : str -> Prop.
Definition own (n : node) : Prop := forall p, refers_to n = Some p -> Q p.
Definition good (n : node) : Prop := forall b b' m, inside b n b' m -> own m.
Lemma good_own n : good n -> own n.
Proof. intros H. apply (H false false). constructor. Qed.
Lemma good_child b n b' m : good n -> child b n b' m -> good m.
Proof. intros H C b1 b2 k I. destruct (GroupGen.inside_any _ _ _ _ I b') as [b3 I']. apply (H b b3). eapply in_child; eassumption. Qed.
Lemma good_children n ns : good n -> (forall m, In m ns -> exists b b', child b n b' m) -> Forall good ns.
Proof. intros H C. apply Forall_forall. intros m Hm. destruct (C m Hm) as (b & b' & K). eapply good_child; eassumption. Qed.
Lemma good_bodies n ns : good n -> In ns (bodies n) -> Forall good ns.
Proof.
  intros H Hn. apply (good_children n ns H). intros m Hm. destruct n; cbn in Hn; try contradiction.
  - apply in_map_iff in Hn as ([w' t b] & <- & Hc). exists false, false. eapply ch_if; eassumption.
  - apply in_map_iff in Hn as ([w' t b] & <- & Hc). exists false, false. eapply ch_match; eassumption.
  - destruct Hn as [<-|[<-|[]]]; exists false; eexists; [eapply ch_body; eassumption|eapply ch_else; eassumption].
  - destruct Hn as [<-|[]]. exists false, false. eapply ch_block; eassumption.
Qed.

(** ** Contexts and heritage *)
Record cgood (c : context) : Prop := {
  gc_nodes : Forall good (c_nodes c);
  gc_blocks : forall x d, In (x, d) (c_blocks c) -> Forall good (b_nodes d);
  gc_macros : forall x d, In (x, d) (c_macros c) -> Forall good (k_nodes d)
}.
Definition dgood (bs : list (str * list (context * block_def))) : Prop :=
  forall x l c d, In (x, l) bs -> In (c, d) l -> cgood c /\ Forall good (b_nodes d).
Definition hgood (h : heritage) : Prop := cgood (h_root h) /\ dgood (h_blocks h).
Lemma merge_cgood o c : cgood o -> cgood c -> cgood (merge_context o c).
Proof.
  intros [_ _ O3] [C1 C2 C3]. constructor; cbn [merge_context c_nodes c_blocks c_macros]; [exact C1|exact C2|].
  intros x d H. apply merge_macros_in in H as [H|H]; eauto.
Qed.
Lemma context_node_cgood find path top n c c' more : good n -> cgood c -> context_node find path top n c = Ok (c', more) -> cgood c' /\ Forall (Forall good) more.
Proof.
  intros HN [C1 C2 C3] E. destruct n; cbn [context_node] in E; try solve [injection E as <- <-; split; [constructor; assumption|constructor]].
  - injection E as <- <-. split; [constructor; assumption|]. apply Forall_forall. intros ns Hns. apply (good_bodies _ _ HN). exact Hns.
  - injection E as <- <-. split; [constructor; assumption|]. apply Forall_forall. intros ns Hns. apply (good_bodies _ _ HN). exact Hns.
  - injection E as <- <-. split; [constructor; assumption|]. apply Forall_forall. intros ns Hns. apply (good_bodies _ _ HN). exact Hns.
  - destruct top; [|discriminate E]. destruct (c_extends c); [discriminate E|]. destruct (find path0 path); try discriminate E. cbn in E. injection E as <- <-. split; [constructor; assumption|constructor].
  - injection E as <- <-. assert (G : Forall good nodes) by (apply (good_bodies _ _ HN); left; reflexivity).
    split; [|constructor; [exact G|constructor]]. constructor; cbn [c_nodes c_blocks c_macros]; [exact C1| |exact C3].
    intros x d H. apply in_put in H as [H|[-> ->]]; [eapply C2; exact H|exact G].
  - destruct top; [|discriminate E]. destruct (find path0 path); try discriminate E. cbn in E. injection E as <- <-. split; [constructor; assumption|constructor].
  - destruct top; [|discriminate E]. injection E as <- <-. split; [|constructor]. constructor; cbn [c_nodes c_blocks c_macros]; [exact C1|exact C2|].
    intros x d H. apply in_put in H as [H|[-> ->]]; [eapply C3; exact H|]. apply (good_children _ _ HN). intros m Hm. exists false, false. eapply ch_macro; exact Hm.
Qed.
Lemma context_nodes_cgood find path top : forall ns c stack c' stack', Forall good ns -> cgood c -> Forall (Forall good) stack ->
  context_nodes find path top ns c stack = Ok (c', stack') -> cgood c' /\ Forall (Forall good) stack'.
Proof.
  induction ns as [|n ns IH]; intros c stack c' stack' HN HC HS E; cbn [context_nodes] in E; [injection E as <- <-; auto|].
  apply rbind_inv in E as ([c1 more] & E1 & E). inversion HN as [|? ? H1 H2]; subst. destruct (context_node_cgood _ _ _ _ _ _ _ H1 HC E1) as [G1 G2].
  eapply IH; [exact H2|exact G1| |exact E]. apply Forall_app. split; [apply Forall_rev, G2|exact HS].
Qed.
Lemma context_loop_cgood find path : forall fuel top stack c c', Forall (Forall good) stack -> cgood c -> context_loop find fuel path top stack c = GOk c' -> cgood c'.
Proof.
  induction fuel as [|f IH]; intros top stack c c' HS HC E; (destruct stack as [|ns stack]; [injection E as <-; exact HC|]); cbn [context_loop] in E; [discriminate E|].
  inversion HS as [|? ? H1 H2]; subst. apply gbind_inv in E as ([c1 st1] & E1 & E). apply of_res_inv in E1.
  destruct (context_nodes_cgood _ _ _ _ _ _ _ _ H1 HC H2 E1) as [G1 G2]. eapply IH; [exact G2|exact G1|exact E].
Qed.
Lemma contexts_cgood find templates contexts : (forall p ns, In (p, ns) templates -> Forall good ns) -> build_contexts find templates = GOk contexts ->
  forall p c, get p contexts = Some c -> cgood c.
Proof.
  revert contexts. induction templates as [|[p ns] l IH]; intros contexts HT E q c G; cbn [build_contexts] in E.
  - injection E as <-. discriminate G.
  - apply gbind_inv in E as (c1 & E1 & E). apply gbind_inv in E as (cs & E2 & E). injection E as <-. cbn [get] in G.
    destruct (str_eqb q p); [|eapply IH; [intros; eapply HT; right; eassumption|exact E2|exact G]]. injection G as <-.
    assert (HN : Forall good ns) by (eapply HT; left; reflexivity). eapply context_loop_cgood; [|constructor|exact E1]; cbn; [repeat constructor; exact HN|exact HN| |]; contradiction.
Qed.
Section Her.
  Variable contexts : list (str * context).
  Hypothesis HG : forall p c, get p contexts = Some c -> cgood c.
  Lemma push_cgood c bs x : cgood c -> dgood bs -> In x (c_blocks c) -> dgood (push_block c x bs).
  Proof.
    intros HC HB Hx. destruct x as [x d]. unfold push_block. cbn [fst snd]. intros y l c' d' H1 H2. apply in_put in H1 as [H1|[-> ->]]; [eapply HB; eassumption|].
    pose proof (gc_blocks _ HC _ _ Hx) as GD. destruct (get x bs) as [l0|] eqn:E.
    - apply in_app_iff in H2 as [H2|[[= <- <-]|[]]]; [eapply HB; [apply get_in; exact E|exact H2]|split; assumption].
    - destruct H2 as [[= <- <-]|[]]. split; assumption.
  Qed.
  Lemma heritage_loop_cgood : forall fuel c bs h, cgood c -> dgood bs -> heritage_loop fuel contexts c bs = GOk h -> hgood h.
  Proof.
    induction fuel as [|f IH]; intros c bs h HC HB E; cbn [heritage_loop] in E; destruct (c_extends c) as [p|]; try discriminate E; try (injection E as <-; split; assumption).
    destruct (get p contexts) as [c'|] eqn:G; [|discriminate E]. pose proof (HG _ _ G) as HC'. eapply IH; [exact HC'| |exact E].
    assert (K : forall l, incl l (c_blocks c') -> forall bs, dgood bs -> dgood (fold_left (fun bs x => push_block c' x bs) l bs)).
    { clear - HC'. induction l as [|x l IH]; intros HI bs HB; [exact HB|]. cbn [fold_left]. apply IH; [intros y Hy; apply HI; right; exact Hy|].
      apply push_cgood; [exact HC'|exact HB|apply HI; left; reflexivity]. }
    apply K; [intros y Hy; exact Hy|exact HB].
  Qed.
  Lemma heritage_new_cgood fuel c h : cgood c -> heritage_new fuel contexts c = GOk h -> hgood h.
  Proof.
    intros HC E. eapply heritage_loop_cgood; [exact HC| |exact E]. intros x l c' d H1 H2. apply in_map_iff in H1 as ([y e] & [= <- <-] & H1).
    destruct H2 as [[= <- <-]|[]]. split; [exact HC|]. eapply (gc_blocks _ HC). exact H1.
  Qed.
End Her.
End Any.

(** ** Moving *)
Section Moved.
  Variable mv : str -> str.
  Hypothesis inj : forall p q, mv p = mv q -> p = q.
  Definition mvc (c : context) : context :=
    {| c_nodes := c_nodes c; c_extends := option_map mv (c_extends c); c_blocks := c_blocks c; c_macros := c_macros c;
       c_imports := map (fun x => (fst x, mv (snd x))) (c_imports c) |}.
  Definition mvs (cs : list (str * context)) : list (str * context) := map (fun x => (mv (fst x), mvc (snd x))) cs.
  Definition mvl (l : list (context * block_def)) : list (context * block_def) := map (fun x => (mvc (fst x), snd x)) l.
  Definition mvb (bs : list (str * list (context * block_def))) : list (str * list (context * block_def)) := map (fun x => (fst x, mvl (snd x))) bs.
  Definition mvh (h : heritage) : heritage := {| h_root := mvc (h_root h); h_blocks := mvb (h_blocks h) |}.
  Definition rg (x : gen) : gen := (moved_code mv (fst (fst x)), snd (fst x), snd x).
  Lemma bindr {A B A' B'} (f : A -> A') (g : B -> B') r r' k k' : r' = gmap f r -> (forall a, k' (f a) = gmap g (k a)) -> gbind r' k' = gmap g (gbind r k).
  Proof. intros -> H. destruct r; cbn [gmap gbind]; auto. Qed.
  Lemma bindk {A B B'} (g : B -> B') (r : gres A) k k' : (forall a, k' a = gmap g (k a)) -> gbind r k' = gmap g (gbind r k).
  Proof. intros H. destruct r; cbn [gmap gbind]; auto. Qed.
  Lemma bindre {A B A' B'} (f : A -> A') (g : B -> B') r r' k k' : r' = gmap f r -> (forall a, r = GOk a -> k' (f a) = gmap g (k a)) -> gbind r' k' = gmap g (gbind r k).
  Proof. intros -> H. destruct r; cbn [gmap gbind]; auto. Qed.
  Lemma mv_eqb p q : str_eqb (mv p) (mv q) = str_eqb p q.
  Proof.
    destruct (str_eqb p q) eqn:E; [apply str_eqb_eq in E as ->; apply str_eqb_refl|]. apply str_eqb_neq. intros H. apply inj in H as ->. rewrite str_eqb_refl in E. discriminate E.
  Qed.
  Lemma get_keys {A B} (f : A -> B) p l : get (mv p) (map (fun x => (mv (fst x), f (snd x))) l) = option_map f (get p l).
  Proof. induction l as [|[k v] l IH]; cbn [map get fst snd]; [reflexivity|]. rewrite mv_eqb. destruct (str_eqb p k); [reflexivity|exact IH]. Qed.
  Lemma put_keys {A B} (f : A -> B) p v l : put (mv p) (f v) (map (fun x => (mv (fst x), f (snd x))) l) = map (fun x => (mv (fst x), f (snd x))) (put p v l).
  Proof. induction l as [|[k u] l IH]; cbn [map put fst snd]; [reflexivity|]. rewrite mv_eqb. destruct (str_eqb p k); cbn [map fst snd]; [reflexivity|]. f_equal. exact IH. Qed.
  Lemma put_vals {A B} (f : A -> B) k v l : put k (f v) (map (fun x => (fst x, f (snd x))) l) = map (fun x => (fst x, f (snd x))) (put k v l).
  Proof. induction l as [|[k' u] l IH]; cbn [map put fst snd]; [reflexivity|]. destruct (str_eqb k k'); cbn [map fst snd]; [reflexivity|]. f_equal. exact IH. Qed.
  Lemma merge_vals {A B} (f : A -> B) : forall o l, fold_left (fun l x => put_new (fst x) (snd x) l) (map (fun x => (fst x, f (snd x))) o) (map (fun x => (fst x, f (snd x))) l) =
    map (fun x => (fst x, f (snd x))) (fold_left (fun l x => put_new (fst x) (snd x) l) o l).
  Proof.
    induction o as [|[k v] o IH]; intros l; [reflexivity|]. cbn [map fold_left fst snd]. rewrite <- IH. f_equal. unfold put_new. rewrite get_map. destruct (get k l); [reflexivity|]. apply put_vals.
  Qed.
  Lemma merge_mvc o c : merge_context (mvc o) (mvc c) = mvc (merge_context o c).
  Proof. unfold merge_context, mvc. cbn [c_nodes c_extends c_blocks c_macros c_imports]. f_equal. apply merge_vals. Qed.
  Lemma get_mvs p cs : get (mv p) (mvs cs) = option_map mvc (get p cs).
  Proof. apply get_keys. Qed.
  Lemma push_mvb c x bs : push_block (mvc c) x (mvb bs) = mvb (push_block c x bs).
  Proof.
    unfold push_block, mvb. rewrite get_map. rewrite <- (put_vals mvl). f_equal. destruct (get (fst x) bs) as [l|]; cbn [option_map]; [|reflexivity]. unfold mvl. rewrite map_app. reflexivity.
  Qed.
  Lemma pushes_mvb c : forall l bs, fold_left (fun bs x => push_block (mvc c) x bs) l (mvb bs) = mvb (fold_left (fun bs x => push_block c x bs) l bs).
  Proof. induction l as [|x l IH]; intros bs; [reflexivity|]. cbn [fold_left]. rewrite push_mvb. apply IH. Qed.
  Lemma heritage_loop_mv cs : forall fuel c bs, heritage_loop fuel (mvs cs) (mvc c) (mvb bs) = gmap mvh (heritage_loop fuel cs c bs).
  Proof.
    induction fuel as [|f IH]; intros c bs; cbn [heritage_loop mvc c_extends]; destruct (c_extends c) as [p|]; cbn [option_map]; try reflexivity.
    rewrite get_mvs. destruct (get p cs) as [c'|]; cbn [option_map]; [|reflexivity]. cbn [mvc c_blocks]. change (c_blocks c') with (c_blocks c'). rewrite <- IH. f_equal. apply pushes_mvb.
  Qed.
  Lemma heritage_new_mv cs fuel c : heritage_new fuel (mvs cs) (mvc c) = gmap mvh (heritage_new fuel cs c).
  Proof. unfold heritage_new. rewrite <- heritage_loop_mv. f_equal. cbn [mvc c_blocks]. unfold mvb. rewrite map_map. reflexivity. Qed.

  (** Building the contexts *)
  Section Contexts.
    Variables (Q D : str -> Prop) (find find' : str -> str -> res str).
    Hypothesis HF : forall p from, Q p -> D from -> find' p (mv from) = moved_path mv (find p from).
    Definition rmap {A B} (f : A -> B) (r : res A) : res B := match r with Ok a => Ok (f a) | Err m => Err m | Panic => Panic end.
    Definition mv1 (x : context * list (list node)) := (mvc (fst x), snd x).
    Lemma context_node_mv path top n c : D path -> own Q n -> context_node find' (mv path) top n (mvc c) = rmap mv1 (context_node find path top n c).
    Proof.
      intros HD H. destruct n; try reflexivity; cbn [context_node]; destruct top; try reflexivity.
      - cbn [mvc c_extends]. destruct (c_extends c); cbn [option_map]; [reflexivity|]. rewrite HF by solve [exact HD|apply H; reflexivity]. destruct (find path0 path); reflexivity.
      - rewrite HF by solve [exact HD|apply H; reflexivity]. destruct (find path0 path) as [q|m|]; cbn [moved_path rbind rmap]; [|reflexivity..]. unfold mv1, mvc. cbn [fst snd c_nodes c_extends c_blocks c_macros c_imports].
        do 3 f_equal. apply put_vals.
    Qed.
    Lemma context_nodes_mv path top : D path -> forall ns c stack, Forall (own Q) ns -> context_nodes find' (mv path) top ns (mvc c) stack = rmap mv1 (context_nodes find path top ns c stack).
    Proof.
      intros HD. induction ns as [|n ns IH]; intros c stack H; [reflexivity|]. inversion H as [|? ? H1 H2]; subst. cbn [context_nodes]. rewrite context_node_mv by assumption.
      destruct (context_node find path top n c) as [[c' more]|m|]; cbn [rmap rbind]; [|reflexivity..]. apply IH, H2.
    Qed.
    Lemma context_loop_mv path : D path -> forall fuel top stack c, Forall (Forall (good Q)) stack -> cgood Q c ->
      context_loop find' fuel (mv path) top stack (mvc c) = gmap mvc (context_loop find fuel path top stack c).
    Proof.
      intros HD. induction fuel as [|f IH]; intros top stack c H HC; (destruct stack as [|ns stack]; [reflexivity|]); [reflexivity|]. cbn [context_loop]. inversion H as [|? ? H1 H2]; subst.
      rewrite context_nodes_mv by solve [exact HD|eapply Forall_impl; [|exact H1]; intros; apply good_own; assumption].
      destruct (context_nodes find path top ns c stack) as [[c' stack']|m|] eqn:E; cbn [rmap of_res gbind]; [|reflexivity..]. destruct (context_nodes_cgood Q _ _ _ _ _ _ _ _ H1 HC H2 E) as [G1 G2].
      cbn [mv1 fst snd]. apply IH; assumption.
    Qed.
    Lemma context_new_mv path ns : D path -> Forall (good Q) ns -> context_new find' (mv path) ns = gmap mvc (context_new find path ns).
    Proof.
      intros HD H. unfold context_new. change {| c_nodes := ns; c_extends := None; c_blocks := []; c_macros := []; c_imports := [] |} with (mvc {| c_nodes := ns; c_extends := None; c_blocks := []; c_macros := []; c_imports := [] |}) at 1.
      apply context_loop_mv; [exact HD|constructor; [exact H|constructor]|]. constructor; cbn; [exact H|contradiction|contradiction].
    Qed.
    Lemma build_contexts_mv : forall ts, (forall p ns, In (p, ns) ts -> D p /\ Forall (good Q) ns) -> build_contexts find' (moved_templates mv ts) = gmap mvs (build_contexts find ts).
    Proof.
      induction ts as [|[p ns] ts IH]; intros H; [reflexivity|]. cbn [moved_templates map build_contexts fst snd]. eapply bindr; [apply context_new_mv; eapply H; left; reflexivity|]. intros c.
      eapply bindr; [apply IH; intros; eapply H; right; eassumption|]. reflexivity.
    Qed.
  End Contexts.

  (** The generator *)
  Lemma emit_mv st l : moved_code mv (emit st l) = emit st (moved_code mv l).
  Proof. unfold emit. destruct (o_discard st); reflexivity. Qed.
  Lemma around_mv st s l : moved_code mv (emit_around st s l) = emit_around st (moved_stmt mv s) (moved_code mv l).
  Proof. unfold emit_around. destruct (o_discard st); reflexivity. Qed.
  Lemma code_app a b : moved_code mv (a ++ b) = moved_code mv a ++ moved_code mv b.
  Proof. apply map_app. Qed.
  Lemma code_concat {A} (l : list (A * list stmt)) : moved_code mv (concat (map snd l)) = concat (map snd (map (fun b => (fst b, moved_code mv (snd b))) l)).
  Proof. induction l as [|x l IH]; [reflexivity|]. cbn [map concat snd]. rewrite code_app. f_equal. exact IH. Qed.
  Lemma format_mv inp m : forall ws p, format_loop (moved_input mv inp) m ws p = format_loop inp m ws p.
  Proof.
    induction ws as [|[s|e|r wr] ws IH]; intros p; cbn [format_loop]; [reflexivity|apply IH| |apply IH]. change (visit_expr (moved_input mv inp) m e) with (visit_expr inp m e).
    destruct (visit_expr inp m e) as [[r wr]|x|]; cbn [rbind]; [apply IH|reflexivity..].
  Qed.
  Lemma prepare_mv inp m ws n : prepare_format (moved_input mv inp) m ws n = prepare_format inp m ws n.
  Proof. unfold prepare_format. rewrite format_mv. reflexivity. Qed.
  Lemma buf_mv inp st : write_buf_writable (moved_input mv inp) st = gmap rg (write_buf_writable inp st).
  Proof.
    unfold write_buf_writable. rewrite prepare_mv. apply bindk. intros [[z parts] nm]. destruct parts as [|s|f a]; [reflexivity|apply bindk; intros _|destruct (63 <=? o_indent st); [reflexivity|apply bindk; intros _]];
      cbn [gmap]; unfold rg; cbn [fst snd]; rewrite emit_mv; reflexivity.
  Qed.
  Lemma let_mv inp w v e st : write_let (moved_input mv inp) w v e st = gmap rg (write_let inp w v e st).
  Proof.
    unfold write_let. destruct e as [e|].
    - apply bindk. intros r. apply bindk. intros sh. eapply bindr with (f := rg); [destruct sh; [apply buf_mv|reflexivity]|]. intros [[c z] s]. apply bindk. intros _. apply bindk. intros [p m].
      cbn [gmap]. unfold rg. cbn [fst snd]. rewrite code_app, emit_mv. destruct (sh || _); reflexivity.
    - eapply bindr; [apply buf_mv|]. intros [[c z] s]. apply bindk. intros _. apply bindk. intros [p m]. cbn [gmap]. unfold rg. cbn [fst snd]. rewrite code_app, emit_mv. reflexivity.
  Qed.
  Section Parts.
    Variables (inp : ginput) (f g : node -> gst -> gres gen).
    Lemma list_mv : forall ns, (forall n, In n ns -> forall st, g n st = gmap rg (f n st)) -> forall st, gen_list g ns st = gmap rg (gen_list f ns st).
    Proof.
      induction ns as [|n ns IH]; intros H st; cbn [gen_list]; [reflexivity|]. eapply bindr; [apply H; left; reflexivity|]. intros [[c z] s].
      eapply bindr; [apply IH; intros; apply H; right; assumption|]. intros [[c2 z2] s2]. cbn [gmap]. unfold rg. cbn [fst snd]. rewrite code_app. reflexivity.
    Qed.
    Definition rb (x : list stmt * list (rtest * list stmt) * N * list N * bool * gst) :=
      match x with (c, bs, z, zs, h, s) => (moved_code mv c, map (fun b => (fst b, moved_code mv (snd b))) bs, z, zs, h, s) end.
    Lemma branches_mv w : forall cs, (forall w' t ns, In (Cond w' t ns) cs -> forall st, gen_list g ns st = gmap rg (gen_list f ns st)) ->
      forall first st, gen_branches (moved_input mv inp) g w first cs st = gmap rb (gen_branches inp f w first cs st).
    Proof.
      induction cs as [|[w' t ns] cs IH]; intros H first st; cbn [gen_branches].
      - eapply bindr; [apply buf_mv|]. intros [[c z] s]. apply bindk. intros s1. apply bindk. intros s2. reflexivity.
      - eapply bindr; [apply buf_mv|]. intros [[c z] s]. apply bindk. intros s1. apply bindk. intros [t' s2]. eapply bindr; [eapply H; left; reflexivity|]. intros [[bd z'] s3].
        eapply bindr; [apply IH; intros w0 t0 n0 K; eapply H; right; exact K|]. intros [[[[[a r] z2] zs] h] s4]. cbn [gmap rb rg fst snd]. cbn [map fst snd]. rewrite code_app. reflexivity.
    Qed.
    Definition ra (x : list stmt * N * list (target * list stmt) * list N * gst) :=
      match x with (c, z, bs, zs, s) => (moved_code mv c, z, map (fun b => (fst b, moved_code mv (snd b))) bs, zs, s) end.
    Lemma arms_mv w : forall cs, (forall w' t ns, In (When w' t ns) cs -> forall st, gen_list g ns st = gmap rg (gen_list f ns st)) ->
      forall first st, gen_arms (moved_input mv inp) g w first cs st = gmap ra (gen_arms inp f w first cs st).
    Proof.
      induction cs as [|[w' t ns] cs IH]; intros H first st; cbn [gen_arms].
      - eapply bindr; [apply buf_mv|]. intros [[c z] s]. apply bindk. intros s1. apply bindk. intros s2. reflexivity.
      - eapply bindr with (f := rg).
        { destruct first; [reflexivity|]. eapply bindr; [apply buf_mv|]. intros [[c z] s]. apply bindk. intros s1. apply bindk. intros s2. reflexivity. }
        intros [[c z] s]. apply bindk. intros u. apply bindk. intros [p m]. eapply bindr; [eapply H; left; reflexivity|]. intros [[bd z'] s3].
        eapply bindr; [apply IH; intros w0 t0 n0 K; eapply H; right; exact K|]. intros [[[[a z2] r] zs] s4]. cbn [gmap ra rg fst snd]. cbn [map fst snd]. rewrite code_app. reflexivity.
    Qed.
  End Parts.
  Lemma loop_mv inp f f' l l' h w1 v it c w2 w3 st : (forall st, f' st = gmap rg (f st)) -> (forall st, l' st = gmap rg (l st)) ->
    write_loop (moved_input mv inp) f' l' h w1 v it c w2 w3 st = gmap rg (write_loop inp f l h w1 v it c w2 w3 st).
  Proof.
    intros H1 H2. unfold write_loop. apply bindk. intros r. eapply bindr; [apply buf_mv|]. intros [[c0 z0] s0]. apply bindk. intros u0. apply bindk. intros u1. apply bindk. intros [flt s1].
    apply bindk. intros u2. apply bindk. intros [p m]. apply bindk. intros u3. eapply bindr; [apply H1|]. intros [[c1 z1] s2]. eapply bindr; [apply buf_mv|]. intros [[c1' z1'] s3].
    apply bindk. intros s4. apply bindk. intros s5.
    eapply bindr with (f := fun x : list stmt * list stmt * N * gst => match x with (a, b, z, s) => (moved_code mv a, moved_code mv b, z, s) end).
    { destruct h.
      - apply bindk. intros u4. eapply bindr; [apply H2|]. intros [[c2 z2] s6]. eapply bindr; [apply buf_mv|]. intros [[c2' z2'] s7]. apply bindk. intros s8. apply bindk. intros s9.
        cbn [gmap rg fst snd]. rewrite code_app. reflexivity.
      - eapply bindr; [apply buf_mv|]. intros [[c2 z2] s6]. reflexivity. }
    intros [[[ce ct] z2] s6]. apply bindk. intros s7. apply bindk. intros s8. cbn [gmap]. unfold rg. cbn [fst snd]. rewrite !code_app, around_mv, !code_app. cbn [moved_stmt]. unfold moved_code. rewrite map_app. reflexivity.
  Qed.
  Lemma filter_mv inp f f' w1 fn a w2 st : (forall st, f' st = gmap rg (f st)) -> write_filter_block (moved_input mv inp) f' w1 fn a w2 st = gmap rg (write_filter_block inp f w1 fn a w2 st).
  Proof.
    intros H. unfold write_filter_block. apply bindk. intros var. eapply bindr; [apply H|]. intros [[c z] s]. cbn [rg fst snd]. rewrite prepare_mv. apply bindk. intros [[z2 parts] nm].
    destruct parts as [|t|fm ar]; [reflexivity| |]; apply bindk; intros _; apply bindk; intros _; apply bindk; intros [r wr]; apply bindk; intros m;
      cbn [gmap]; unfold rg; cbn [fst snd]; rewrite code_app, emit_mv; reflexivity.
  Qed.

  Section Generator.
    Variables (Q D : str -> Prop) (find find' : str -> str -> res str).
    Hypothesis HF : forall p from, Q p -> D from -> find' p (mv from) = moved_path mv (find p from).
    Variables (inp : ginput) (cs : list (str * context)).
    Hypothesis HP : D (f_path inp).
    Hypothesis HG : forall p c, get p cs = Some c -> cgood Q c.
    Section Step.
      Variables expand expand' : option heritage -> context -> list node -> level -> gst -> gres gen.
      Hypothesis HX : forall her ctx ns lv st, (forall h, her = Some h -> hgood Q h) -> cgood Q ctx -> Forall (good Q) ns ->
        expand' (option_map mvh her) (mvc ctx) ns lv st = gmap rg (expand her ctx ns lv st).
      Variables (her : option heritage) (ctx : context).
      Hypothesis HH : forall h, her = Some h -> hgood Q h.
      Hypothesis HK : cgood Q ctx.
      Lemma block_mv name outer st : write_block (moved_input mv inp) expand' (option_map mvh her) (mvc ctx) name outer st = gmap rg (write_block inp expand her ctx name outer st).
      Proof.
        unfold write_block. apply bindk. intros cur. eapply bindr; [apply buf_mv|]. intros [[c z] s]. cbv zeta. cbn [rg fst snd].
        destruct her as [h|] eqn:E1; cbn [option_map]; [|reflexivity]. pose proof (HH h eq_refl) as [_ HD]. cbn [mvh h_blocks]. unfold mvb. rewrite (get_map mvl).
        destruct (get (fst cur) (h_blocks h)) as [l|] eqn:E2; cbn [option_map]; [|reflexivity]. unfold mvl. rewrite nth_error_map.
        destruct (nth_error l (snd cur)) as [[cc d]|] eqn:E3; cbn [option_map]; [|reflexivity]. cbn [fst snd].
        destruct (HD _ _ _ _ (EndFacts.get_in _ _ _ E2) (nth_error_In _ _ E3)) as [K1 K2].
        eapply bindr. { rewrite merge_mvc. apply (HX (Some h)); [exact HH|apply merge_cgood; assumption|exact K2]. }
        intros [[c2 z2] s2]. cbn [rg fst snd]. eapply bindr with (f := rg). { destruct (ch_is_current_empty (s_locals s2)); [reflexivity|apply buf_mv]. }
        intros [[c3 z3] s3]. cbn [gmap]. unfold rg. cbn [fst snd]. rewrite !code_app. reflexivity.
      Qed.
      Lemma call_mv w scope name args st : write_call (moved_input mv inp) (mvs cs) expand' (option_map mvh her) (mvc ctx) w scope name args st = gmap rg (write_call inp cs expand her ctx w scope name args st).
      Proof.
        unfold write_call. destruct (str_eqb name (lit "super")); [apply block_mv|].
        eapply bindre with (f := fun x : macro_def * context => (fst x, mvc (snd x))).
        { destruct scope as [x|].
          - cbn [mvc c_imports]. rewrite (get_map mv). destruct (get x (c_imports ctx)) as [p|]; cbn [option_map]; [|reflexivity]. rewrite get_mvs. destruct (get p cs) as [c|]; cbn [option_map]; [|reflexivity].
            cbn [mvc c_macros]. destruct (get name (c_macros c)); reflexivity.
          - cbn [mvc c_macros]. destruct (get name (c_macros ctx)); reflexivity. }
        intros [def c] ED. cbn [fst snd].
        assert (G : cgood Q c /\ Forall (good Q) (k_nodes def)).
        { destruct scope as [x|].
          - destruct (get x (c_imports ctx)) as [p|]; [|discriminate ED]. destruct (get p cs) as [c0|] eqn:E1; [|discriminate ED]. destruct (get name (c_macros c0)) as [d|] eqn:E2; [|discriminate ED].
            injection ED as <- <-. pose proof (HG _ _ E1) as G. split; [exact G|]. eapply (gc_macros Q _ G). apply EndFacts.get_in, E2.
          - destruct (get name (c_macros ctx)) as [d|] eqn:E2; [|discriminate ED]. injection ED as <- <-. split; [exact HK|]. eapply (gc_macros Q _ HK). apply EndFacts.get_in, E2. }
        destruct G as [G1 G2]. eapply bindr; [apply buf_mv|]. intros [[c0 z] s]. cbn [rg fst snd]. apply bindk. intros u.
        destruct (negb (Nat.eqb (length args) (length (k_args def)))); [reflexivity|].
        apply bindk. intros nm. apply bindk. intros [[m ns] vs]. apply bindk. intros u1. eapply bindr; [apply HX; assumption|]. intros [[c1 z1] s1]. cbn [rg fst snd].
        eapply bindr; [apply buf_mv|]. intros [[c2 z2] s2]. cbn [rg fst snd]. apply bindk. intros s3. apply bindk. intros s4. cbn [gmap]. unfold rg. cbn [fst snd].
        rewrite code_app, around_mv, !code_app. cbn [moved_stmt]. f_equal. f_equal. f_equal. f_equal. f_equal. f_equal.
        change (map (moved_stmt mv)) with (moved_code mv). rewrite !code_app. destruct ns; [reflexivity|]. rewrite emit_mv. reflexivity.
      Qed.
      Lemma include_mv w path st : Q path -> write_include (moved_input mv inp) (mvs cs) find' expand' (mvc ctx) w path st = gmap rg (write_include inp cs find expand ctx w path st).
      Proof.
        intros HQ. unfold write_include. change (f_path (moved_input mv inp)) with (mv (f_path inp)).
        eapply bindr; [apply buf_mv|]. intros [[c0 z0] s0]. cbn [rg fst snd]. rewrite HF by assumption.
        eapply bindr with (f := mv). { destruct (find path (f_path inp)); reflexivity. } intros p. apply bindk. intros u.
        rewrite get_mvs. destruct (get p cs) as [c|] eqn:EG; cbn [option_map]; [|reflexivity]. cbv zeta. rewrite merge_mvc.
        pose proof (merge_cgood Q _ _ HK (HG _ _ EG)) as HM. set (k := merge_context ctx c) in *.
        eapply bindre with (f := option_map mvh).
        { cbn [mvc c_blocks c_extends]. assert (L : length (mvs cs) = length cs) by apply map_length. rewrite L.
          destruct (c_blocks k) as [|x l]; [destruct (c_extends k); cbn [option_map]; [|reflexivity]|]; (eapply bindr; [apply heritage_new_mv|]; reflexivity). }
        intros h EH.
        assert (K : (forall h0, h = Some h0 -> hgood Q h0) /\ cgood Q match h with Some h0 => h_root h0 | None => k end).
        { destruct h as [h|]; [|split; [discriminate|exact HM]].
          assert (EN : heritage_new (S (length cs)) cs k = GOk h).
          { destruct (c_blocks k) as [|x l]; [destruct (c_extends k); [|discriminate EH]|]; apply gbind_inv in EH as (h0 & EN & EH); injection EH as <-; exact EN. }
          pose proof (heritage_new_cgood Q cs HG _ _ _ HM EN) as G. split; [intros ? [= <-]; exact G|apply G]. }
        destruct K as [K1 K2].
        replace (match option_map mvh h with Some h0 => h_root h0 | None => mvc k end) with (mvc match h with Some h0 => h_root h0 | None => k end) by (destruct h; reflexivity).
        set (hc := match h with Some h0 => h_root h0 | None => k end) in *. change (c_nodes (mvc hc)) with (c_nodes hc).
        eapply bindr. { apply HX; [exact K1|exact K2|apply K2]. } intros [[c1 z1] s1]. cbn [rg fst snd]. eapply bindr; [apply buf_mv|]. intros [[c2 z2] s2]. cbn [gmap]. unfold rg. cbn [fst snd].
        rewrite !code_app, emit_mv. reflexivity.
      Qed.
      Lemma node_mv : forall n lv st, good Q n ->
        handle_node (moved_input mv inp) (mvs cs) find' expand' (option_map mvh her) (mvc ctx) lv n st = gmap rg (handle_node inp cs find expand her ctx lv n st).
      Proof.
        assert (KL : forall ns, Forall (fun n => forall lv st, good Q n -> handle_node (moved_input mv inp) (mvs cs) find' expand' (option_map mvh her) (mvc ctx) lv n st = gmap rg (handle_node inp cs find expand her ctx lv n st)) ns ->
          Forall (good Q) ns -> forall st, gen_list (handle_node (moved_input mv inp) (mvs cs) find' expand' (option_map mvh her) (mvc ctx) LNested) ns st = gmap rg (gen_list (handle_node inp cs find expand her ctx LNested) ns st)).
        { intros ns H1 H2. apply list_mv. intros n Hn s. rewrite Forall_forall in H1, H2. apply H1; auto. }
        induction n using node_ind_all; intros lv st HQ; cbn [handle_node].
        - destruct n; try contradiction; cbn [handle_node].
          all: try solve [destruct (top_level lv); reflexivity].
          all: try solve [reflexivity].
          all: try solve [apply bindk; intros; reflexivity].
          + apply call_mv.
          + apply let_mv.
          + apply include_mv. apply (good_own Q _ HQ). reflexivity.
          + eapply bindr; [apply buf_mv|]. intros [[c z] s]. apply bindk. intros u. cbn [gmap]. unfold rg. cbn [fst snd]. rewrite code_app, emit_mv. reflexivity.
          + eapply bindr; [apply buf_mv|]. intros [[c z] s]. apply bindk. intros u. cbn [gmap]. unfold rg. cbn [fst snd]. rewrite code_app, emit_mv. reflexivity.
        - eapply bindr.
          { apply (branches_mv inp). intros w' t ns Hc s. rewrite Forall_forall in H. specialize (H _ Hc). cbn in H. apply KL; [exact H|]. apply (good_children Q _ _ HQ). intros m Hm. exists false, false. eapply ch_if; eassumption. }
          intros [[[[[c bs] z] zs] he] s]. cbn [rb]. apply bindk. intros z'. cbn [gmap]. unfold rg. cbn [fst snd]. rewrite code_app, around_mv, code_concat. reflexivity.
        - eapply bindr; [apply buf_mv|]. intros [[c z] s]. apply bindk. intros r. apply bindk. intros u. eapply bindr.
          { apply (arms_mv inp). intros w' t ns Hc s'. rewrite Forall_forall in H. specialize (H _ Hc). cbn in H. apply KL; [exact H|]. apply (good_children Q _ _ HQ). intros m Hm. exists false, false. eapply ch_match; eassumption. }
          intros [[[[c1 z1] bs] zs] s1]. cbn [ra]. apply bindk. intros s2. apply bindk. intros z'. cbn [gmap]. unfold rg. cbn [fst snd]. rewrite code_app, around_mv, code_concat. reflexivity.
        - apply loop_mv; intros s; (apply KL; [assumption|]); apply (good_children Q _ _ HQ); intros m Hm; exists false; eexists; [eapply ch_body; eassumption|eapply ch_else; eassumption].
        - apply block_mv.
        - destruct (top_level lv); reflexivity.
        - apply filter_mv. intros s. apply KL; [assumption|]. apply (good_children Q _ _ HQ). intros m Hm. exists false, false. eapply ch_filter; eassumption.
      Qed.
      Lemma nodes_mv ns lv st : Forall (good Q) ns ->
        handle_nodes (moved_input mv inp) (mvs cs) find' expand' (option_map mvh her) (mvc ctx) ns lv st = gmap rg (handle_nodes inp cs find expand her ctx ns lv st).
      Proof.
        intros H. rewrite Forall_forall in H. unfold handle_nodes. eapply bindr; [apply list_mv; intros n Hn s; apply node_mv, H, Hn|]. intros [[c z] s]. cbn [rg fst snd].
        destruct (top_level lv); [|reflexivity]. eapply bindr; [apply (buf_mv inp)|]. intros [[c1 z1] s1]. cbn [gmap]. unfold rg. cbn [fst snd]. rewrite code_app. reflexivity.
      Qed.
    End Step.
    Lemma handle_mv : forall fuel her ctx ns lv st, (forall h, her = Some h -> hgood Q h) -> cgood Q ctx -> Forall (good Q) ns ->
      handle (moved_input mv inp) (mvs cs) find' fuel (option_map mvh her) (mvc ctx) ns lv st = gmap rg (handle inp cs find fuel her ctx ns lv st).
    Proof. induction fuel as [|f IH]; intros her ctx ns lv st H1 H2 H3; [reflexivity|]. cbn [handle]. apply nodes_mv; assumption. Qed.
    Definition rt (x : list stmt * N) := (moved_code mv (fst x), snd x).
    Lemma impl_mv fuel her ctx : (forall h, her = Some h -> hgood Q h) -> cgood Q ctx ->
      impl_template (moved_input mv inp) (mvs cs) find' fuel (option_map mvh her) (mvc ctx) = gmap rt (impl_template inp cs find fuel her ctx).
    Proof.
      intros H1 H2. unfold impl_template. cbv zeta.
      replace (match option_map mvh her with Some h => h_root h | None => mvc ctx end) with (mvc match her with Some h => h_root h | None => ctx end) by (destruct her; reflexivity).
      assert (K : cgood Q match her with Some h => h_root h | None => ctx end) by (destruct her as [h|]; [apply (H1 h eq_refl)|exact H2]).
      set (r := match her with Some h => h_root h | None => ctx end) in *. change (c_nodes (mvc r)) with (c_nodes r). change (initial (moved_input mv inp)) with (initial inp).
      eapply bindr; [apply handle_mv; [exact H1|exact K|apply K]|]. intros [[c z] s]. cbn [rg fst snd]. apply bindk. intros u. apply bindk. intros s1. apply bindk. intros u1. apply bindk. intros s2. reflexivity.
    Qed.
  End Generator.
  Lemma build_mv (Q D : str -> Prop) find find' inp fuel ts : D (f_path inp) -> (forall p from, Q p -> D from -> find' p (mv from) = moved_path mv (find p from)) -> (forall p ns, In (p, ns) ts -> D p /\ Forall (good Q) ns) ->
    build_template (moved_input mv inp) find' fuel (moved_templates mv ts) = gmap rt (build_template inp find fuel ts).
  Proof.
    intros HP HF HT. unfold build_template. eapply bindre; [apply (build_contexts_mv Q D); assumption|]. intros cs EC. change (f_path (moved_input mv inp)) with (mv (f_path inp)). rewrite get_mvs.
    assert (HT' : forall p ns, In (p, ns) ts -> Forall (good Q) ns) by (intros p ns K; eapply HT; exact K). pose proof (contexts_cgood Q _ _ _ HT' EC) as HG. destruct (get (f_path inp) cs) as [c|] eqn:E; cbn [option_map]; [|reflexivity]. pose proof (HG _ _ E) as HC.
    eapply bindre with (f := option_map mvh).
    { cbn [mvc c_blocks c_extends]. change (f_block (moved_input mv inp)) with (f_block inp).
      assert (K : gbind (heritage_new fuel (mvs cs) (mvc c)) (fun h => match f_block inp with Some b => match get b (h_blocks h) with None => GErr (lit "cannot find block") | Some _ => GOk (Some h) end | None => GOk (Some h) end) =
        gmap (option_map mvh) (gbind (heritage_new fuel cs c) (fun h => match f_block inp with Some b => match get b (h_blocks h) with None => GErr (lit "cannot find block") | Some _ => GOk (Some h) end | None => GOk (Some h) end))).
      { eapply bindr; [apply heritage_new_mv|]. intros h. destruct (f_block inp) as [b|]; [|reflexivity]. cbn [mvh h_blocks]. unfold mvb. rewrite (get_map mvl). destruct (get b (h_blocks h)); reflexivity. }
      destruct (c_blocks c) as [|x l]; [destruct (c_extends c); cbn [option_map]; [exact K|reflexivity]|exact K]. }
    intros h EH. apply (impl_mv Q D); try assumption. intros h0 ->.
    assert (EN : heritage_new fuel cs c = GOk h0).
    { assert (J : forall (r : gres heritage), gbind r (fun h => match f_block inp with Some b => match get b (h_blocks h) with None => GErr (lit "cannot find block") | Some _ => GOk (Some h) end | None => GOk (Some h) end) = GOk (Some h0) -> r = GOk h0).
      { intros r ER. apply gbind_inv in ER as (h1 & -> & ER). destruct (f_block inp) as [b|]; [destruct (get b (h_blocks h1)); [|discriminate ER]|]; injection ER as ->; reflexivity. }
      destruct (c_blocks c) as [|x l]; [destruct (c_extends c); [|discriminate EH]|]; apply J, EH. }
    eapply heritage_new_cgood; eassumption.
  Qed.
End Moved.
