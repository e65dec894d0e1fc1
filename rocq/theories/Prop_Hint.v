(** * What the size hint counts: C72.  No definition here models code in /repo. *)
From Verif Require Import Base Ws Config Utf8 Nom Ast Ident GenExpr Heritage Gen HeritageFacts HeritageSpec Prop_Heritage TreeSpec EndFacts FlatFacts PanicTop FmtSpec Prop_Fmt TestWorld.
From Verif Require FmtGen GroupGen.
From Coq Require Import Lia.
Local Open Scope N_scope.

(** [Weighs f n]: in the format string [f] the text has [n] bytes, when each hole is taken for three. *)
Inductive Weighs : str -> nat -> Prop :=
| W_end : Weighs [] 0
| W_open f n : Weighs f n -> Weighs (123 :: 123 :: f) (1 + n)
| W_close f n : Weighs f n -> Weighs (125 :: 125 :: f) (1 + n)
| W_char c f n : c <> 123 -> c <> 125 -> Weighs f n -> Weighs (c :: f) (length (encode [c]) + n)
| W_hole x f n : identifier x -> Weighs f n -> Weighs (123 :: x ++ 125 :: f) (3 + n).
(** The bytes that statements without branches write, likewise *)
Inductive Writes : list stmt -> nat -> Prop :=
| W_nothing : Writes [] 0
| W_str s l n : Writes l n -> Writes (SWriteStr s :: l) (length (encode s) + n)
| W_fmt f args l k n : Weighs f k -> Writes l n -> Writes (SWriteFmt f args :: l) (k + n)
| W_other s l n : (match s with SLet _ _ | SDeclare _ | SAssign _ _ | SLetTuple _ _ | SIncludeBytes _ => True | _ => False end) -> Writes l n -> Writes (s :: l) n
| W_block b l k n : Writes b k -> Writes l n -> Writes (SBlock b :: l) (k + n).
(** No conditions, matches, loops and filter blocks *)
Definition branchless (n : node) : Prop := match n with NIf _ _ | NMatch _ _ _ _ | NLoop _ _ _ _ _ _ _ _ | NFilterBlock _ _ _ _ _ | NBreak _ | NContinue _ => False | _ => True end.
(** Text, expressions and what leaves no trace *)
Definition straight (n : node) : Prop := match n with NLit _ | NRaw _ _ _ | NComment _ _ | NExpr _ _ | NMacro _ _ _ _ _ | NImport _ _ _ => True | _ => False end.

(** ** One format string *)
Lemma byte_len_bytes s : byte_len s = N.of_nat (length (encode s)).
Proof.
  unfold byte_len, encode. induction s as [|c s IH]; [reflexivity|]. cbn [map fold_right flat_map]. rewrite IH, app_length, Nat2N.inj_add. f_equal.
  unfold char_len, enc_char. destruct (c <? 128), (c <? 2048), (c <? 65536); reflexivity.
Qed.
Lemma weighs_app f n f' n' : Weighs f n -> Weighs f' n' -> Weighs (f ++ f') (n + n').
Proof.
  intros H H'. induction H; cbn [app]; [exact H'| | | |]; try rewrite <- Nat.add_assoc; try (constructor; assumption).
  rewrite <- app_assoc. cbn [app]. constructor; assumption.
Qed.
Lemma weighs_text s : Weighs (double_braces s) (length (encode s)).
Proof.
  induction s as [|c s IH]; [constructor|]. change (encode (c :: s)) with (enc_char c ++ encode s). rewrite app_length. unfold double_braces in *. cbn [map concat].
  destruct (N.eqb_spec c 123) as [->|H1]; [|destruct (N.eqb_spec c 125) as [->|H2]]; cbn [app]; [apply (W_open _ _ IH)|apply (W_close _ _ IH)|].
  replace (length (enc_char c)) with (length (encode [c])) by (unfold encode; cbn [flat_map]; rewrite app_nil_r; reflexivity). constructor; assumption.
Qed.
Definition weighed (p : fparts) : Prop := exists n, Weighs (p_format p) n /\ p_size p = N.of_nat n.
Lemma weighed_hole f z id args cache named : (exists n, Weighs f n /\ z = N.of_nat n) ->
  weighed {| p_format := f ++ lit "{" ++ arg_name id ++ lit "}"; p_args := args; p_size := z + 3; p_cache := cache; p_named := named |}.
Proof.
  intros (n & H & ->). exists (n + (3 + 0))%nat. split; [|cbn [p_size]; lia]. cbn [p_format]. apply weighs_app; [exact H|].
  exact (W_hole (arg_name id) [] 0 (FmtGen.arg_identifier id) W_end).
Qed.
Lemma weighed_named inp r wrapped cacheable p : weighed p -> weighed (named_expression inp r wrapped cacheable p).
Proof.
  intros H. unfold named_expression. destruct (cache_get _ (p_cache p)) as [id|]; [destruct cacheable|]; apply weighed_hole; exact H.
Qed.
Lemma weighed_loop inp m : forall ws p p', weighed p -> format_loop inp m ws p = Ok p' -> weighed p'.
Proof.
  induction ws as [|[s|e|r wr] ws IH]; intros p p' H E; cbn [format_loop] in E.
  - injection E as <-. exact H.
  - eapply IH; [|exact E]. destruct H as (n & H & HZ). exists (n + length (encode s))%nat. cbn [p_format p_size]. split; [apply weighs_app; [exact H|apply weighs_text]|].
    rewrite HZ, byte_len_bytes. lia.
  - apply rbind_inv in E as ([r wr] & _ & E). eapply IH; [|exact E]. apply weighed_named, H.
  - eapply IH; [|exact E]. apply weighed_named, H.
Qed.
(** Whatever is written in one go, the size that goes with it is that of the statement. *)
Theorem C72_one_write inp st code z st' : o_discard st = false -> write_buf_writable inp st = GOk (code, z, st') -> exists n, Writes code n /\ z = N.of_nat n.
Proof.
  intros D E. unfold write_buf_writable in E. apply gbind_inv in E as ([[z0 parts] named] & E1 & E). apply of_res_inv in E1. unfold prepare_format in E1.
  destruct (s_buf st) as [|w ws].
  { injection E1 as <- <- <-. injection E as <- <- _. exists 0%nat. split; [constructor|reflexivity]. }
  destruct (all_lits (w :: ws)).
  - injection E1 as <- <- <-. apply gbind_inv in E as (? & _ & E). injection E as <- <- _. unfold emit. rewrite D. eexists. split; [apply W_str, W_nothing|].
    rewrite byte_len_bytes. lia.
  - apply rbind_inv in E1 as (p & E1 & E2). injection E2 as <- <- <-. destruct (63 <=? o_indent st); [discriminate E|]. apply gbind_inv in E as (? & _ & E). injection E as <- <- _.
    unfold emit. rewrite D. apply weighed_loop in E1; [|exists 0%nat; split; [constructor|reflexivity]]. destruct E1 as (n & H & ->). exists (n + 0)%nat. split; [apply W_fmt; [exact H|constructor]|lia].
Qed.
Print Assumptions C72_one_write.

(** ** Whole templates *)
Lemma list_straight inp contexts find expand her ctx lv : forall nodes st code z st', Forall straight nodes -> o_discard st = false ->
  gen_list (handle_node inp contexts find expand her ctx lv) nodes st = GOk (code, z, st') -> code = [] /\ z = 0 /\ o_discard st' = false.
Proof.
  intros nodes st code z st' F. revert st code z st'. induction F as [|n nodes Hn F IH]; intros st code z st' D E.
  { injection E as <- <- <-. auto. }
  change (gen_list ?f (n :: nodes) st) with (let* (c1, z1, st) := f n st in let* (c2, z2, st) := gen_list f nodes st in GOk (c1 ++ c2, z1 + z2, st)) in E.
  apply gbind_inv in E as ([[c1 z1] st1] & E1 & E). cbv beta in E. apply gbind_inv in E as ([[c2 z2] st2] & E2 & E). injection E as <- <- <-.
  assert (K : c1 = [] /\ z1 = 0 /\ o_discard st1 = false).
  { assert (V : forall l s s', do_visit_lit l s = GOk s' -> o_discard s' = o_discard s).
    { intros l s s' H. unfold do_visit_lit in H. destruct (visit_lit l (s_ws s)) as [[out w]|]; [|discriminate H]. injection H as <-. unfold push_lits, push. destruct (s_discard (set_ws w s)); reflexivity. }
    assert (X : forall w s, o_discard (do_handle_ws inp w s) = o_discard s).
    { intros w s. unfold do_handle_ws, do_prepare_ws, do_flush_ws, push_lits, push. destruct (flush_ws _ _ _) as [out w']. destruct (s_discard (set_ws w' s)); reflexivity. }
    assert (Y : forall l s, o_discard (push l s) = o_discard s) by (intros l s; unfold push; destruct (s_discard s); reflexivity).
    destruct n; try contradiction; cbn [handle_node] in E1.
    all: try (destruct (top_level lv); [|discriminate E1]); try (apply gbind_inv in E1 as (s & E1 & E); apply V in E1); try injection E1 as <- <- <-; try injection E as <- <- <-;
      (split; [reflexivity|split; [reflexivity|]]); rewrite ?X, ?Y, ?X; try congruence; try exact D. 
    exact (eq_trans (X {| ws_l := ws_l w1; ws_r := ws_r w2 |} st) D). }
  destruct K as (-> & -> & D1). destruct (IH _ _ _ _ D1 E2) as (-> & -> & D2). auto.
Qed.
Lemma context_at find p : forall ts cs c, build_contexts find ts = GOk cs -> get p cs = Some c -> exists nodes, get p ts = Some nodes /\ context_new find p nodes = GOk c.
Proof.
  induction ts as [|[q ns] ts IH]; intros cs c H G; cbn [build_contexts] in H; [injection H as <-; discriminate G|].
  apply gbind_inv in H as (c0 & H0 & H). apply gbind_inv in H as (cs0 & H1 & [= <-]). cbn [get] in *. destruct (str_eqb p q) eqn:E; [|eapply IH; eassumption].
  apply str_eqb_eq in E as ->. injection G as <-. eauto.
Qed.
(** C72.  The size hint of a template of text and expressions is the number of bytes of its text and three for each expression. *)
Theorem C72_straight_partial inp find fuel templates nodes code z : get (f_path inp) templates = Some nodes -> Forall straight nodes ->
  build_template inp find fuel templates = GOk (code, z) -> exists n, Writes code n /\ z = N.of_nat n.
Proof.
  intros G F E. unfold build_template in E. apply gbind_inv in E as (contexts & EC & E). destruct (get (f_path inp) contexts) as [c|] eqn:GC; [|discriminate E].
  destruct (context_at find _ _ _ _ EC GC) as (nodes' & G' & HC). rewrite G in G'. injection G' as <-.
  apply C34_context in HC as (HN & HB & _ & HE & _).
  assert (B : c_blocks c = []).
  { destruct (c_blocks c) as [|[x d] l] eqn:E0; [reflexivity|]. exfalso. specialize (HB x d). cbn [get] in HB. rewrite str_eqb_refl in HB. specialize (HB eq_refl). destruct HB as [HB _].
    rewrite Forall_forall in F. inversion HB as [l0 Hi|l0 m b0 Hm Hb Hw]; subst; [exact (F _ Hi)|]. specialize (F _ Hm). destruct m; try contradiction; cbn in Hb; contradiction. }
  assert (X : c_extends c = None).
  { destruct (c_extends c) as [q|]; [|reflexivity]. destruct (HE q eq_refl) as (q' & Hq & _). rewrite Forall_forall in F. destruct (F _ Hq). }
  rewrite B, X in E. cbn [gbind] in E. unfold impl_template in E. apply gbind_inv in E as ([[c0 z0] st] & E0 & E). cbv beta in E.
  repeat (apply gbind_inv in E as (? & _ & E); cbv beta in E). injection E as <- <-. rewrite HN in E0. destruct fuel as [|f]; [discriminate E0|]. cbn [handle] in E0. unfold handle_nodes in E0.
  apply gbind_inv in E0 as ([[c1 z1] st1] & E1 & E0). cbv beta in E0. apply list_straight in E1 as (-> & -> & D); [|exact F|reflexivity]. cbn [top_level] in E0.
  apply gbind_inv in E0 as ([[c2 z2] st2] & E2 & E0). injection E0 as <- <- _. cbn [app]. apply C72_one_write in E2 as (n & H & ->); [eauto|].
  destruct (next_ws (s_ws st1)); [|exact D]. unfold do_flush_ws, push_lits, push. destruct (flush_ws _ _ _) as [out w']. destruct (s_discard (set_ws w' st1)); exact D.
Qed.
Print Assumptions C72_straight_partial.
(** The number is determined by the code. *)
Lemma weighs_one f n : Weighs f n -> forall n', Weighs f n' -> n = n'.
Proof.
  induction 1 as [|f l H IH|f l H IH|c f l H1 H2 H IH|x f l HI H IH]; intros l' Q; inversion Q as [|f' k Q1 E|f' k Q1 E|c' f' k K1 K2 Q1 E|x' f' k HI' Q1 E]; subst; try congruence; auto.
  - destruct (identifier_plain _ HI') as (c & r & -> & K & _). cbn [app] in E. injection E as E _. congruence.
  - destruct (identifier_plain _ HI) as (c & r & E' & K & _). subst x. cbn [app] in *. congruence.
  - destruct (identifier_plain _ HI) as (c & r & E1 & K1 & K2 & K3). destruct (identifier_plain _ HI') as (c' & r' & E1' & K1' & K2' & K3').
    destruct (cut x ltac:(subst x; constructor; assumption) x' f f' ltac:(subst x'; constructor; assumption)) as [-> ->]; [congruence|]. f_equal. apply IH, Q1.
Qed.
Theorem C72_one_number code n : Writes code n -> forall n', Writes code n' -> n = n'.
Proof.
  induction 1 as [|s l n H IH|f args l k n K H IH|s l n S0 H IH|b l k n K IHK H IH]; intros n' Q; inversion Q; subst; try contradiction; auto.
  f_equal; [eapply weighs_one; eassumption|auto].
Qed.
Print Assumptions C72_one_number.

(** ** Templates without branches: never too much is counted *)
Section Any.
Variable own : node -> Prop.
Definition good (n : node) : Prop := forall b b' m, inside b n b' m -> own m.
Lemma good_own n : good n -> own n.
Proof. intros H. apply (H false false). constructor. Qed.
Lemma good_child b n b' m : good n -> child b n b' m -> good m.
Proof. intros H C b1 b2 k I. destruct (GroupGen.inside_any _ _ _ _ I b') as [b3 I']. apply (H b b3). eapply in_child; eassumption. Qed.
Lemma good_children n ns : good n -> (forall m, In m ns -> exists b b', child b n b' m) -> Forall good ns.
Proof. intros H C. apply Forall_forall. intros m Hm. destruct (C m Hm) as (b & b' & K). eapply good_child; eassumption. Qed.
Lemma good_bodies n ns : good n -> In ns (bodies n) -> Forall good ns.
Proof.
  intros H Hn. apply (good_children n ns H). intros m Hm. destruct n; cbn in Hn; try contradiction.
  - apply in_map_iff in Hn as ([w' t b] & <- & Hc). exists false, false. eapply ch_if; eassumption.
  - apply in_map_iff in Hn as ([w' t b] & <- & Hc). exists false, false. eapply ch_match; eassumption.
  - destruct Hn as [<-|[<-|[]]]; exists false; eexists; [eapply ch_body; eassumption|eapply ch_else; eassumption].
  - destruct Hn as [<-|[]]. exists false, false. eapply ch_block; eassumption.
Qed.

(** ** Contexts and heritage *)
Record cgood (c : context) : Prop := {
  gc_nodes : Forall good (c_nodes c);
  gc_blocks : forall x d, In (x, d) (c_blocks c) -> Forall good (b_nodes d);
  gc_macros : forall x d, In (x, d) (c_macros c) -> Forall good (k_nodes d)
}.
Definition dgood (bs : list (str * list (context * block_def))) : Prop :=
  forall x l c d, In (x, l) bs -> In (c, d) l -> cgood c /\ Forall good (b_nodes d).
Definition hgood (h : heritage) : Prop := cgood (h_root h) /\ dgood (h_blocks h).
Lemma merge_cgood o c : cgood o -> cgood c -> cgood (merge_context o c).
Proof.
  intros [_ _ O3] [C1 C2 C3]. constructor; cbn [merge_context c_nodes c_blocks c_macros]; [exact C1|exact C2|].
  intros x d H. apply merge_macros_in in H as [H|H]; eauto.
Qed.
Lemma context_node_cgood find path top n c c' more : good n -> cgood c -> context_node find path top n c = Ok (c', more) -> cgood c' /\ Forall (Forall good) more.
Proof.
  intros HN [C1 C2 C3] E. destruct n; cbn [context_node] in E; try solve [injection E as <- <-; split; [constructor; assumption|constructor]].
  - injection E as <- <-. split; [constructor; assumption|]. apply Forall_forall. intros ns Hns. apply (good_bodies _ _ HN). exact Hns.
  - injection E as <- <-. split; [constructor; assumption|]. apply Forall_forall. intros ns Hns. apply (good_bodies _ _ HN). exact Hns.
  - injection E as <- <-. split; [constructor; assumption|]. apply Forall_forall. intros ns Hns. apply (good_bodies _ _ HN). exact Hns.
  - destruct top; [|discriminate E]. destruct (c_extends c); [discriminate E|]. destruct (find path0 path); try discriminate E. cbn in E. injection E as <- <-. split; [constructor; assumption|constructor].
  - injection E as <- <-. assert (G : Forall good nodes) by (apply (good_bodies _ _ HN); left; reflexivity).
    split; [|constructor; [exact G|constructor]]. constructor; cbn [c_nodes c_blocks c_macros]; [exact C1| |exact C3].
    intros x d H. apply in_put in H as [H|[-> ->]]; [eapply C2; exact H|exact G].
  - destruct top; [|discriminate E]. destruct (find path0 path); try discriminate E. cbn in E. injection E as <- <-. split; [constructor; assumption|constructor].
  - destruct top; [|discriminate E]. injection E as <- <-. split; [|constructor]. constructor; cbn [c_nodes c_blocks c_macros]; [exact C1|exact C2|].
    intros x d H. apply in_put in H as [H|[-> ->]]; [eapply C3; exact H|]. apply (good_children _ _ HN). intros m Hm. exists false, false. eapply ch_macro; exact Hm.
Qed.
Lemma context_nodes_cgood find path top : forall ns c stack c' stack', Forall good ns -> cgood c -> Forall (Forall good) stack ->
  context_nodes find path top ns c stack = Ok (c', stack') -> cgood c' /\ Forall (Forall good) stack'.
Proof.
  induction ns as [|n ns IH]; intros c stack c' stack' HN HC HS E; cbn [context_nodes] in E; [injection E as <- <-; auto|].
  apply rbind_inv in E as ([c1 more] & E1 & E). inversion HN as [|? ? H1 H2]; subst. destruct (context_node_cgood _ _ _ _ _ _ _ H1 HC E1) as [G1 G2].
  eapply IH; [exact H2|exact G1| |exact E]. apply Forall_app. split; [apply Forall_rev, G2|exact HS].
Qed.
Lemma context_loop_cgood find path : forall fuel top stack c c', Forall (Forall good) stack -> cgood c -> context_loop find fuel path top stack c = GOk c' -> cgood c'.
Proof.
  induction fuel as [|f IH]; intros top stack c c' HS HC E; (destruct stack as [|ns stack]; [injection E as <-; exact HC|]); cbn [context_loop] in E; [discriminate E|].
  inversion HS as [|? ? H1 H2]; subst. apply gbind_inv in E as ([c1 st1] & E1 & E). apply of_res_inv in E1.
  destruct (context_nodes_cgood _ _ _ _ _ _ _ _ H1 HC H2 E1) as [G1 G2]. eapply IH; [exact G2|exact G1|exact E].
Qed.
Lemma contexts_cgood find templates contexts : (forall p ns, In (p, ns) templates -> Forall good ns) -> build_contexts find templates = GOk contexts ->
  forall p c, get p contexts = Some c -> cgood c.
Proof.
  revert contexts. induction templates as [|[p ns] l IH]; intros contexts HT E q c G; cbn [build_contexts] in E.
  - injection E as <-. discriminate G.
  - apply gbind_inv in E as (c1 & E1 & E). apply gbind_inv in E as (cs & E2 & E). injection E as <-. cbn [get] in G.
    destruct (str_eqb q p); [|eapply IH; [intros; eapply HT; right; eassumption|exact E2|exact G]]. injection G as <-.
    assert (HN : Forall good ns) by (eapply HT; left; reflexivity). eapply context_loop_cgood; [|constructor|exact E1]; cbn; [repeat constructor; exact HN|exact HN| |]; contradiction.
Qed.
Section Her.
  Variable contexts : list (str * context).
  Hypothesis HG : forall p c, get p contexts = Some c -> cgood c.
  Lemma push_cgood c bs x : cgood c -> dgood bs -> In x (c_blocks c) -> dgood (push_block c x bs).
  Proof.
    intros HC HB Hx. destruct x as [x d]. unfold push_block. cbn [fst snd]. intros y l c' d' H1 H2. apply in_put in H1 as [H1|[-> ->]]; [eapply HB; eassumption|].
    pose proof (gc_blocks _ HC _ _ Hx) as GD. destruct (get x bs) as [l0|] eqn:E.
    - apply in_app_iff in H2 as [H2|[[= <- <-]|[]]]; [eapply HB; [apply get_in; exact E|exact H2]|split; assumption].
    - destruct H2 as [[= <- <-]|[]]. split; assumption.
  Qed.
  Lemma heritage_loop_cgood : forall fuel c bs h, cgood c -> dgood bs -> heritage_loop fuel contexts c bs = GOk h -> hgood h.
  Proof.
    induction fuel as [|f IH]; intros c bs h HC HB E; cbn [heritage_loop] in E; destruct (c_extends c) as [p|]; try discriminate E; try (injection E as <-; split; assumption).
    destruct (get p contexts) as [c'|] eqn:G; [|discriminate E]. pose proof (HG _ _ G) as HC'. eapply IH; [exact HC'| |exact E].
    assert (K : forall l, incl l (c_blocks c') -> forall bs, dgood bs -> dgood (fold_left (fun bs x => push_block c' x bs) l bs)).
    { clear - HC'. induction l as [|x l IH]; intros HI bs HB; [exact HB|]. cbn [fold_left]. apply IH; [intros y Hy; apply HI; right; exact Hy|].
      apply push_cgood; [exact HC'|exact HB|apply HI; left; reflexivity]. }
    apply K; [intros y Hy; exact Hy|exact HB].
  Qed.
  Lemma heritage_new_cgood fuel c h : cgood c -> heritage_new fuel contexts c = GOk h -> hgood h.
  Proof.
    intros HC E. eapply heritage_loop_cgood; [exact HC| |exact E]. intros x l c' d H1 H2. apply in_map_iff in H1 as ([y e] & [= <- <-] & H1).
    destruct H2 as [[= <- <-]|[]]. split; [exact HC|]. eapply (gc_blocks _ HC). exact H1.
  Qed.
End Her.
End Any.
Definition counted (code : list stmt) (z : N) : Prop := exists n, Writes code n /\ z <= N.of_nat n.
Lemma writes_app a n b m : Writes a n -> Writes b m -> Writes (a ++ b) (n + m).
Proof. intros H K. induction H; cbn [app]; [exact K| | | |]; rewrite <- ?Nat.add_assoc; constructor; assumption. Qed.
Lemma counted_nil : counted [] 0.
Proof. exists 0%nat. split; [constructor|lia]. Qed.
Lemma counted_app a x b y : counted a x -> counted b y -> counted (a ++ b) (x + y).
Proof. intros (n & H1 & H2) (m & K1 & K2). exists (n + m)%nat. split; [apply writes_app; assumption|lia]. Qed.
Lemma counted_less a x y : counted a x -> y <= x -> counted a y.
Proof. intros (n & H1 & H2) L. exists n. split; [exact H1|lia]. Qed.
Lemma counted_other s : match s with SLet _ _ | SDeclare _ | SAssign _ _ | SLetTuple _ _ | SIncludeBytes _ => True | _ => False end -> counted [s] 0.
Proof. intros H. exists 0%nat. split; [apply W_other; [exact H|constructor]|lia]. Qed.
Lemma counted_block b z : counted b z -> counted [SBlock b] z.
Proof. intros (n & H1 & H2). exists (n + 0)%nat. split; [apply W_block; [exact H1|constructor]|lia]. Qed.
Section Gen.
  Variable inp : ginput.
  Hypothesis HF : f_block inp = None.
  Variables (contexts : list (str * context)) (find : str -> str -> res str).
  Notation good := (good branchless).
  Notation cgood := (cgood branchless).
  Notation hgood := (hgood branchless).
  Definition live (st : gst) : Prop := s_discard st = false /\ o_discard st = false.
  Definition gok (r : gres gen) : Prop := gd true (fun x : gen => counted (fst (fst x)) (snd (fst x)) /\ live (snd x)) r.
  Notation gd_any := GroupGen.gd_any.
  Ltac any := eapply gd_bind; [apply gd_any|].
  Lemma live_push ws st : live st -> live (push ws st).
  Proof. intros H. unfold push. destruct (s_discard st); exact H. Qed.
  Lemma live_flush l st : live st -> live (do_flush_ws inp l st).
  Proof. intros H. unfold do_flush_ws. destruct (flush_ws _ _ _) as [o w]. apply live_push. exact H. Qed.
  Lemma live_ws w st : live st -> live (do_handle_ws inp w st).
  Proof. intros H. apply (live_flush (ws_l w) st H). Qed.
  Lemma live_open st : live st -> live (open_brace st).
  Proof. intros H. unfold open_brace. destruct (o_discard st); exact H. Qed.
  Lemma gd_dedent_ok st : live st -> gd true live (dedent st).
  Proof. intros H. unfold dedent. destruct (o_indent st =? 0); [exact I|exact H]. Qed.
  Lemma gd_close_ok st : live st -> gd true live (close_brace st).
  Proof. intros H. unfold close_brace. destruct (o_discard st); [exact H|]. eapply gd_bind; [apply gd_dedent_ok, H|]. intros s Hs. any. intros _ _. exact Hs. Qed.
  Lemma gd_pop_ok st : live st -> gd true live (pop_locals st).
  Proof. intros H. unfold pop_locals. any. intros m _. exact H. Qed.
  Lemma gd_lit_ok l st : live st -> gd true live (do_visit_lit l st).
  Proof. intros H. unfold do_visit_lit. destruct (visit_lit l (s_ws st)) as [[o w]|]; [|exact I]. apply live_push. exact H. Qed.
  Lemma gok_write st : live st -> gok (write_buf_writable inp st).
  Proof.
    intros H. unfold gok. destruct (write_buf_writable inp st) as [[[c z] s]| | |] eqn:E; cbn; auto. split.
    - destruct (C72_one_write _ _ _ _ _ (proj2 H) E) as (n & K & ->). exists n. split; [exact K|lia].
    - unfold write_buf_writable in E. apply gbind_inv in E as ([[z0 parts] named] & _ & E). cbv beta iota zeta in E. destruct parts as [|x|x y].
      + injection E as _ _ <-. exact H.
      + apply gbind_inv in E as (? & _ & E). injection E as _ _ <-. exact H.
      + destruct (63 <=? o_indent st); [discriminate E|]. apply gbind_inv in E as (? & _ & E). injection E as _ _ <-. exact H.
  Qed.
  Lemma emit_live st s : live st -> emit st s = s.
  Proof. intros [_ H]. unfold emit. rewrite H. reflexivity. Qed.
  Lemma gok_let w var val st : live st -> gok (write_let inp w var val st).
  Proof.
    intros H. pose proof (live_ws w st H) as H1. unfold write_let, gok. destruct val as [e|].
    - any. intros r _. any. intros sh _.
      eapply (gd_bind true (fun x : gen => counted (fst (fst x)) (snd (fst x)) /\ live (snd x))); [destruct sh; [apply gok_write, H1|split; [apply counted_nil|exact H1]]|].
      intros [[c z] s] [C S]. cbn [fst snd] in C, S. any. intros _ _. any. intros [p m] _.
      split; [|exact S]. cbn [fst snd]. rewrite (emit_live _ _ S). eapply counted_less; [apply counted_app; [exact C|apply counted_other]|lia].
      match goal with |- match (if ?b then _ else _) with _ => _ end => destruct b end; exact I.
    - eapply gd_bind; [apply gok_write, H1|]. intros [[c z] s] [C S]. cbn [fst snd] in C, S. any. intros _ _. any. intros [p m] _.
      split; [|exact S]. cbn [fst snd]. rewrite (emit_live _ _ S). eapply counted_less; [apply counted_app; [exact C|apply counted_other; exact I]|lia].
  Qed.
  Lemma gok_list f : forall ns, (forall n, In n ns -> forall st, live st -> gok (f n st)) -> forall st, live st -> gok (gen_list f ns st).
  Proof.
    induction ns as [|n ns IH]; intros H st E; cbn [gen_list]; [split; [apply counted_nil|exact E]|].
    eapply gd_bind; [apply H; [left; reflexivity|exact E]|]. intros [[c z] s] [C1 S1]. cbn [fst snd] in C1, S1. eapply gd_bind; [apply IH; [intros; apply H; [right|]; assumption|exact S1]|].
    intros [[c' z'] s'] [C2 S2]. split; [apply counted_app; assumption|exact S2].
  Qed.
  Hypothesis HG : forall p c, get p contexts = Some c -> cgood c.
  Section Step.
    Variable expand : option heritage -> context -> list node -> level -> gst -> gres gen.
    Hypothesis HX : forall her ctx ns lv st, (forall h, her = Some h -> hgood h) -> cgood ctx -> Forall good ns -> live st -> gok (expand her ctx ns lv st).
    Variables (her : option heritage) (ctx : context).
    Hypothesis HH : forall h, her = Some h -> hgood h.
    Hypothesis HC : cgood ctx.
    Lemma gok_block name outer st : live st -> gok (write_block inp expand her ctx name outer st).
    Proof.
      intros H. unfold write_block, gok. any. intros cur _. eapply gd_bind; [apply gok_write, live_flush, H|]. intros [[c z] s] [C1 S1]. cbn [fst snd] in C1, S1.
      cbv zeta. destruct her as [h|]; [|exact I]. destruct (get (fst cur) (h_blocks h)) as [defs|] eqn:G; [|exact I]. destruct (nth_error defs (snd cur)) as [[cc d]|] eqn:NE; [|exact I].
      destruct (HH h eq_refl) as [_ HD]. destruct (HD _ _ _ _ (get_in _ _ _ G) (nth_error_In _ _ NE)) as [K1 K2]. rewrite (proj1 S1), andb_false_r. cbv iota.
      eapply gd_bind; [apply HX; [exact HH|apply merge_cgood; [exact HC|exact K1]|exact K2|split; reflexivity]|]. intros [[c1 z1] s1] [C2 S2]. cbn [fst snd] in C2, S2.
      eapply (gd_bind true (fun x : gen => counted (fst (fst x)) (snd (fst x)) /\ live (snd x))); [destruct (ch_is_current_empty (s_locals s1)); [split; [apply counted_nil|exact S2]|apply gok_write, S2]|].
      intros [[c2 z2] s2] [C3 S3]. cbn [fst snd] in C3, S3. split.
      - cbn [fst snd]. eapply counted_less; [apply counted_app; [exact C1|apply counted_app; [exact C2|exact C3]]|lia].
      - cbn [snd]. split; [|apply S1]. exact (proj1 (live_flush (ws_l (b_ws2 d)) _ S3)).
    Qed.
    Lemma gok_call w scope name args st : live st -> gok (write_call inp contexts expand her ctx w scope name args st).
    Proof.
      intros H. unfold write_call. destruct (str_eqb name (lit "super")); [apply gok_block, H|]. unfold gok.
      eapply (gd_bind true (fun x : macro_def * context => Forall good (k_nodes (fst x)) /\ cgood (snd x))).
      { destruct scope as [s|].
        - destruct (get s (c_imports ctx)) as [path|]; [|exact I]. destruct (get path contexts) as [mc|] eqn:G; [|exact I]. destruct (get name (c_macros mc)) eqn:GM; [|exact I].
          pose proof (HG _ _ G) as K. split; [eapply (gc_macros _ _ K), get_in, GM|exact K].
        - destruct (get name (c_macros ctx)) eqn:GM; [|exact I]. split; [eapply (gc_macros _ _ HC), get_in, GM|exact HC]. }
      intros [def own_ctx] [K1 K2]. cbn [fst snd] in K1, K2.
      eapply gd_bind; [apply gok_write; exact (live_flush (ws_l w) st H)|]. intros [[c z] s] [C1 S1]. cbn [fst snd] in C1, S1. any. intros _ _.
      destruct (negb (Nat.eqb (length args) (length (k_args def)))); [exact I|]. any. intros nm _. any. intros [[m ns] vs] _. any. intros _ _.
      eapply gd_bind; [apply HX; [exact HH|exact K2|exact K1|exact (live_open s S1)]|]. intros [[c1 z1] s1] [C2 S2]. cbn [fst snd] in C2, S2.
      eapply gd_bind; [apply gok_write, live_flush, S2|]. intros [[c2 z2] s2] [C3 S3]. cbn [fst snd] in C3, S3.
      eapply gd_bind; [apply gd_close_ok, S3|]. intros s3 S4. eapply gd_bind; [apply gd_pop_ok, S4|]. intros s4 S5.
      split; [|exact S5]. cbn [fst snd]. unfold emit_around, emit. change (o_discard (do_prepare_ws inp (ws_r w) s4)) with (o_discard s4). rewrite (proj2 S5).
      eapply counted_less; [apply counted_app; [exact C1|apply counted_block]|].
      + apply counted_app; [|apply counted_app; [exact C2|exact C3]]. destruct ns; [apply counted_nil|apply counted_other; exact I].
      + lia.
    Qed.
    Lemma gok_include w path st : live st -> gok (write_include inp contexts find expand ctx w path st).
    Proof.
      intros H. unfold write_include, gok. eapply gd_bind; [apply gok_write, live_flush, H|]. intros [[c z] s] [C1 S1]. cbn [fst snd] in C1, S1.
      any. intros q _. any. intros _ _. destruct (get q contexts) as [cc|] eqn:G; [|exact I]. cbv zeta.
      pose proof (merge_cgood _ _ _ HC (HG _ _ G)) as GM.
      eapply (gd_bind true (fun h => forall h', h = Some h' -> hgood h')).
      { assert (R : gd true (fun h => forall h', h = Some h' -> hgood h') (let* h := heritage_new (S (length contexts)) contexts (merge_context ctx cc) in GOk (Some h))).
        { eapply (gd_bind true hgood); [|intros h Hh h' [= <-]; exact Hh]. destruct (heritage_new (S (length contexts)) contexts (merge_context ctx cc)) eqn:E; cbn; auto. eapply heritage_new_cgood; eassumption. }
        destruct (c_blocks (merge_context ctx cc)), (c_extends (merge_context ctx cc)); try exact R. discriminate. }
      intros h Hh.
      assert (K : cgood match h with Some h0 => h_root h0 | None => merge_context ctx cc end) by (destruct h as [h|]; [apply (Hh h eq_refl)|exact GM]).
      eapply gd_bind; [apply HX; [exact Hh|exact K|apply K|exact S1]|]. intros [[c1 z1] s1] [C2 S2]. cbn [fst snd] in C2, S2.
      eapply gd_bind; [apply gok_write, S2|]. intros [[c2 z2] s2] [C3 S3]. cbn [fst snd] in C3, S3. split; [|exact S1]. cbn [fst snd].
      unfold emit. change (o_discard (set_indent (o_indent s2) s)) with (o_discard s). rewrite (proj2 S1).
      eapply counted_less; [apply counted_app; [exact C1|apply counted_app; [apply (counted_other (SIncludeBytes q)); exact I|apply counted_app; [exact C2|exact C3]]]|lia].
    Qed.
    Lemma gok_node n lv st : good n -> live st -> gok (handle_node inp contexts find expand her ctx lv n st).
    Proof.
      intros GN S0. pose proof (good_own _ _ GN) as ON. destruct n; try contradiction; cbn [handle_node].
      - eapply gd_bind; [apply gd_lit_ok, S0|]. intros s Hs. split; [apply counted_nil|exact Hs].
      - split; [apply counted_nil|apply live_ws, S0].
      - split; [apply counted_nil|]. apply live_push, live_ws, S0.
      - apply gok_call, S0.
      - apply gok_let, S0.
      - destruct (top_level lv); [split; [apply counted_nil|exact S0]|exact I].
      - apply gok_block, S0.
      - apply gok_include, S0.
      - destruct (top_level lv); [split; [apply counted_nil|apply live_ws, S0]|exact I].
      - destruct (top_level lv); [split; [apply counted_nil|exact (live_flush _ _ S0)]|exact I].
      - eapply gd_bind; [apply gd_lit_ok, live_ws, S0|]. intros s Hs. split; [apply counted_nil|apply live_ws, Hs].
    Qed.
    Lemma gok_nodes ns lv st : Forall good ns -> live st -> gok (handle_nodes inp contexts find expand her ctx ns lv st).
    Proof.
      intros HN H. unfold handle_nodes, gok. rewrite Forall_forall in HN. eapply gd_bind; [apply gok_list; [intros n Hn s Hs; apply gok_node; [apply HN, Hn|exact Hs]|exact H]|].
      intros [[c z] s] [C1 S1]. cbn [fst snd] in C1, S1. destruct (top_level lv); [|split; assumption].
      assert (S2 : live (match next_ws (s_ws s) with Some _ => do_flush_ws inp (Some (skip (s_ws s))) s | None => s end)) by (destruct (next_ws (s_ws s)); [apply live_flush|]; exact S1).
      eapply gd_bind; [apply gok_write, S2|]. intros [[c' z'] s'] [C2 S3]. split; [apply counted_app; assumption|exact S3].
    Qed.
  End Step.
  Lemma gok_handle : forall fuel her ctx ns lv st, (forall h, her = Some h -> hgood h) -> cgood ctx -> Forall good ns -> live st -> gok (handle inp contexts find fuel her ctx ns lv st).
  Proof.
    induction fuel as [|f IH]; intros her ctx ns lv st HH HC HN HS; [reflexivity|]. cbn [handle]. apply gok_nodes; assumption.
  Qed.
End Gen.
(** When no template has conditions, matches, loops or filter blocks, the hint is never more than the number of bytes of text written
    and three for each expression. *)
Theorem C72_not_too_much inp find fuel templates code z : f_block inp = None ->
  (forall p ns n b b' m, In (p, ns) templates -> In n ns -> inside b n b' m -> branchless m) ->
  build_template inp find fuel templates = GOk (code, z) -> exists n, Writes code n /\ z <= N.of_nat n.
Proof.
  intros HF HT E. unfold build_template in E. apply gbind_inv in E as (contexts & E1 & E).
  assert (HT' : forall p ns, In (p, ns) templates -> Forall (good branchless) ns).
  { intros p ns H. apply Forall_forall. intros n Hn b b' m K. exact (HT p ns n b b' m H Hn K). }
  pose proof (contexts_cgood _ _ _ _ HT' E1) as HG.
  destruct (get (f_path inp) contexts) as [ctx|] eqn:G; [|discriminate E]. pose proof (HG _ _ G) as HC. apply gbind_inv in E as (her & E2 & E). rewrite HF in E2.
  assert (HH : forall h, her = Some h -> hgood branchless h).
  { assert (R : (let* h := heritage_new fuel contexts ctx in GOk (Some h)) = GOk her -> forall h, her = Some h -> hgood branchless h).
    { intros QE h ->. apply gbind_inv in QE as (h' & Q1 & QE). injection QE as ->. eapply heritage_new_cgood; eassumption. }
    destruct (c_blocks ctx), (c_extends ctx); try exact (R E2). injection E2 as <-. discriminate. }
  unfold impl_template in E. cbv zeta in E. apply gbind_inv in E as ([[c z'] s] & E3 & E). cbv beta iota in E.
  assert (K : cgood branchless match her with Some h => h_root h | None => ctx end) by (destruct her as [h|]; [apply (HH h eq_refl)|exact HC]).
  assert (L : live (initial inp 2)) by (split; [cbn; rewrite HF; reflexivity|reflexivity]).
  pose proof (gok_handle inp contexts find HG fuel her _ (c_nodes match her with Some h => h_root h | None => ctx end) LTop (initial inp 2) HH K (gc_nodes _ _ K) L) as R.
  unfold gok in R. rewrite E3 in R. destruct R as [R _]. cbn [fst snd] in R.
  apply gbind_inv in E as (u & _ & E). apply gbind_inv in E as (s1 & _ & E). apply gbind_inv in E as (u2 & _ & E). apply gbind_inv in E as (s2 & _ & E). injection E as <- <-. exact R.
Qed.
Print Assumptions C72_not_too_much.

(** ** Examples *)
(** Text with a brace and characters of two and three bytes, an expression written twice, a comment, a macro and a raw block: one
    write with one argument; the hint is 2 + 3 + 1 + 1 + 3 + 1 + 3 + 2 + 1. *)
Definition is_straight (n : node) : bool := match n with NLit _ | NRaw _ _ _ | NComment _ _ | NExpr _ _ | NMacro _ _ _ _ _ | NImport _ _ _ => true | _ => false end.
Definition C72_page : dir := one ([233; 8364] ++ lit "{ {{ x }}a{{ x }}{# c #}{% macro m(y) %}text{{ y }}{% endmacro %}{% raw %}{{.{% endraw %}").
Example C72_example :
  match t_templates C72_page main with GOk ts => match get main ts with Some ns => forallb is_straight ns && Nat.leb 7 (length ns) | None => false end | _ => false end = true /\
  match t_code C72_page None main with GOk ([SWriteFmt f args], z) => Some (f, length args, z) | _ => None end = Some ([233; 8364] ++ lit "{{ {expr0}a{expr0}{{{{.", 1%nat, 17).
Proof. vm_compute. auto. Qed.
(** ** What is not counted: the text before a let, an include, a block or a call, since the size of what these write first is dropped.
    The claim is false when there are such nodes as well. *)
Definition C72_miscounted (more : node -> Prop) : Prop := exists inp find fuel templates nodes code z,
  get (f_path inp) templates = Some nodes /\ Forall (fun n => straight n \/ more n) nodes /\
  build_template inp find fuel templates = GOk (code, z) /\ (exists n, Writes code n) /\ ~ exists n, Writes code n /\ z = N.of_nat n.
Definition plain_text (s : str) : node := NLit {| lws := []; lval := s; rws := [] |}.
Definition C72_inp : ginput := t_inp None main.
Definition C72_find : str -> str -> res str := fun x _ => Ok x.
Lemma uncounted (P : node -> Prop) templates nodes s l n : get main templates = Some nodes -> Forall (fun n => straight n \/ P n) nodes ->
  build_template C72_inp C72_find 9 templates = GOk (SWriteStr s :: l, 0) -> Writes l n -> s <> [] -> C72_miscounted P.
Proof.
  intros G F E W NE. exists C72_inp, C72_find, 9%nat, templates, nodes, (SWriteStr s :: l), 0. split; [exact G|]. split; [exact F|]. split; [exact E|].
  split; [eexists; apply W_str, W|]. intros (k & K & Z). rewrite <- (C72_one_number _ _ (W_str s l n W) _ K) in Z.
  destruct s as [|c s]; [exact (NE eq_refl)|]. change (encode (c :: s)) with (enc_char c ++ encode s) in Z. rewrite app_length in Z.
  assert (0 < length (enc_char c))%nat by (unfold enc_char; destruct (c <? 128), (c <? 2048), (c <? 65536); cbn [length]; lia). lia.
Qed.
Theorem C72_let_refuted : C72_miscounted (fun n => exists w t e, n = NLet w t e).
Proof.
  apply (uncounted _ [(main, [plain_text (lit "text"); NLet no_ws (TName (lit "v")) None])] _ (lit "text") [SDeclare (TName (lit "v"))] 0 eq_refl).
  - constructor; [left; exact I|]. constructor; [right; eauto|constructor].
  - vm_compute. reflexivity.
  - apply W_other; [exact I|constructor].
  - discriminate.
Qed.
Theorem C72_include_refuted : C72_miscounted (fun n => exists w p, n = NInclude w p).
Proof.
  apply (uncounted _ [(main, [plain_text (lit "text"); NInclude no_ws (lit "i")]); (lit "i", [])] _ (lit "text") [SIncludeBytes (lit "i")] 0 eq_refl).
  - constructor; [left; exact I|]. constructor; [right; eauto|constructor].
  - vm_compute. reflexivity.
  - apply W_other; [exact I|constructor].
  - discriminate.
Qed.
Theorem C72_block_refuted : C72_miscounted (fun n => exists w1 x ns w2, n = NBlockDef w1 x ns w2).
Proof.
  apply (uncounted _ [(main, [plain_text (lit "text"); NBlockDef no_ws (lit "b") [] no_ws])] _ (lit "text") [] 0 eq_refl).
  - constructor; [left; exact I|]. constructor; [right; eauto 6|constructor].
  - vm_compute. reflexivity.
  - constructor.
  - discriminate.
Qed.
Print Assumptions C72_block_refuted.
(** A page with a parent, a macro, a let and an included file: the text before the block, the call and the include goes uncounted. *)
Fixpoint no_branches (fuel : nat) (n : node) : bool :=
  match fuel with
  | O => false
  | S k => match n with
      | NIf _ _ | NMatch _ _ _ _ | NLoop _ _ _ _ _ _ _ _ | NFilterBlock _ _ _ _ _ | NBreak _ | NContinue _ => false
      | NBlockDef _ _ ns _ | NMacro _ _ _ ns _ => forallb (no_branches k) ns
      | _ => true
      end
  end.
Lemma no_branches_ok : forall b n b' m, inside b n b' m -> forall k, no_branches k n = true -> branchless m.
Proof.
  induction 1 as [b n|b n b1 m b2 j C K IH]; intros k E; (destruct k as [|k]; [discriminate E|]).
  - destruct n; try exact I; discriminate E.
  - cbn [no_branches] in E. destruct C; try discriminate E; rewrite forallb_forall in E; eauto.
Qed.
Definition C72_pages : dir :=
  [(main, lit "{% extends ""b"" %}{% macro m(v) %}<{{ v }}>{% endmacro %}{% block x %}ab{% let y = 1 %}{% call m(y) %}cd{% include ""i"" %}{% endblock %}");
   (lit "b", lit "<p>{% block x %}{% endblock %}</p>"); (lit "i", [233])].
Example C72_pages_example :
  match t_templates C72_pages main with GOk ts => forallb (fun t => forallb (no_branches 9) (snd t)) ts && Nat.eqb (length ts) 3 | _ => false end = true /\
  match t_code C72_pages None main with GOk ([SWriteStr a; SLet _ _; SWriteStr b; SBlock [SWriteFmt f _]; SWriteStr c; SIncludeBytes _; SWriteStr d; SWriteStr e], z) => Some ([a; b; f; c; d; e], z) | _ => None end =
  Some ([lit "<p>"; lit "ab"; lit "<{expr0}>"; lit "cd"; [233]; lit "</p>"], 11).
Proof. vm_compute. auto. Qed.
