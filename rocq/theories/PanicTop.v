(** * The generator does not panic on templates that satisfy the conditions of PanicSpec.v: from parsed templates on. *)
From Verif Require Import Base Ws Ast Ident GenExpr Heritage Gen HeritageSpec HeritageFacts TreeSpec ParseSpec ApartFacts PanicSpec PanicFacts PanicGen.
From Coq Require Import Lia ZArith ZifyBool ZifyNat ZifyN.
Local Open Scope N_scope.

Section NodeInd.
  Variable P : node -> Prop.
  Definition cond_has (c : cond) : Prop := match c with Cond _ _ ns => Forall P ns end.
  Definition when_has (c : when_) : Prop := match c with When _ _ ns => Forall P ns end.
  Hypothesis Hleaf : forall n, match n with NIf _ _ | NMatch _ _ _ _ | NLoop _ _ _ _ _ _ _ _ | NBlockDef _ _ _ _ | NMacro _ _ _ _ _ | NFilterBlock _ _ _ _ _ => False | _ => True end -> P n.
  Hypothesis Hif : forall w cs, Forall cond_has cs -> P (NIf w cs).
  Hypothesis Hmatch : forall w1 e arms w2, Forall when_has arms -> P (NMatch w1 e arms w2).
  Hypothesis Hloop : forall w1 t it c body w2 els w3, Forall P body -> Forall P els -> P (NLoop w1 t it c body w2 els w3).
  Hypothesis Hblock : forall w1 x l w2, Forall P l -> P (NBlockDef w1 x l w2).
  Hypothesis Hmacro : forall w1 x a l w2, Forall P l -> P (NMacro w1 x a l w2).
  Hypothesis Hfilter : forall w1 x a l w2, Forall P l -> P (NFilterBlock w1 x a l w2).
  Fixpoint node_ind_all (n : node) : P n :=
    let many := fix many (l : list node) : Forall P l :=
      match l with [] => Forall_nil P | n :: l' => Forall_cons n (node_ind_all n) (many l') end in
    match n with
    | NIf w cs => Hif w cs ((fix f (l : list cond) : Forall cond_has l :=
        match l with [] => Forall_nil _ | (Cond _ _ ns) as c :: l' => Forall_cons c (many ns : cond_has (Cond _ _ ns)) (f l') end) cs)
    | NMatch w1 e arms w2 => Hmatch w1 e arms w2 ((fix f (l : list when_) : Forall when_has l :=
        match l with [] => Forall_nil _ | (When _ _ ns) as c :: l' => Forall_cons c (many ns : when_has (When _ _ ns)) (f l') end) arms)
    | NLoop w1 t it c body w2 els w3 => Hloop w1 t it c body w2 els w3 (many body) (many els)
    | NBlockDef w1 x l w2 => Hblock w1 x l w2 (many l)
    | NMacro w1 x a l w2 => Hmacro w1 x a l w2 (many l)
    | NFilterBlock w1 x a l w2 => Hfilter w1 x a l w2 (many l)
    | n => Hleaf n I
    end.
End NodeInd.

Lemma mentions_incl top l p : mentions top l p -> forall l', incl l l' -> mentions top l' p.
Proof. intros H l' HI. destruct H; [eapply m_extends|eapply m_import|eapply m_include|eapply m_macro|eapply m_filter|eapply m_body]; eauto. Qed.
Lemma mentions_top l p : mentions false l p -> mentions true l p.
Proof. intros H. remember false as top eqn:E. destruct H; try discriminate E; [eapply m_include|eapply m_filter|eapply m_body]; eauto. Qed.
Lemma in_cond w0 cs w t ns : In (Cond w t ns) cs -> In ns (bodies (NIf w0 cs)).
Proof. intros H. cbn. apply in_map_iff. exists (Cond w t ns). auto. Qed.

Lemma mentions_inside l p : mentions false l p -> forall b, exists n b' w, In n l /\ inside b n b' (NInclude w p).
Proof.
  intros H. remember false as top eqn:E. induction H as [| |top l w p H| |top l w1 x a c w2 p H H1 IH|top l m c p H H0 H1 IH]; try discriminate E; intros b.
  - exists (NInclude w p), b, w. split; [exact H|constructor].
  - destruct (IH eq_refl b) as (n & b' & w & Hn & K). eexists _, b', w. split; [exact H|]. eapply in_child; [apply ch_filter, Hn|exact K].
  - assert (B : exists b1, forall n, In n c -> child b m b1 n).
    { destruct m; cbn [bodies] in H0; try contradiction.
      - apply in_map_iff in H0 as ([w' t ns] & <- & Hc). exists b. intros n Hn. eapply ch_if; eassumption.
      - apply in_map_iff in H0 as ([w' t ns] & <- & Hc). exists b. intros n Hn. eapply ch_match; eassumption.
      - destruct H0 as [<-|[<-|[]]]; [exists true; intros n Hn; apply ch_body, Hn|exists b; intros n Hn; apply ch_else, Hn].
      - destruct H0 as [<-|[]]. exists b. intros n Hn. apply ch_block, Hn. }
    destruct B as [b1 B]. destruct (IH eq_refl b1) as (n & b' & w & Hn & K). exists m, b', w. split; [exact H|]. eapply in_child; [apply B, Hn|exact K].
Qed.

(** ** Blocks inside of nodes *)
Lemma names_of_in y l : In y (names_of l) <-> exists n, In n l /\ In y (block_names n).
Proof.
  unfold names_of. rewrite in_concat. split.
  - intros (x & Hx & Hy). apply in_map_iff in Hx as (n & <- & Hn). exists n. auto.
  - intros (n & Hn & Hy). exists (block_names n). split; [apply in_map, Hn|exact Hy].
Qed.
Lemma block_names_inside n : forall b y, In y (block_names n) -> exists b' w1 l w2, inside b n b' (NBlockDef w1 y l w2).
Proof.
  induction n using node_ind_all; intros b y Hy; cbn [block_names] in Hy.
  - destruct n; try contradiction.
  - apply in_concat in Hy as (x & Hx & Hy). apply in_map_iff in Hx as ([w' t ns] & <- & Hc). apply names_of_in in Hy as (m & Hm & Hy).
    rewrite Forall_forall in H. specialize (H _ Hc). cbn in H. rewrite Forall_forall in H. destruct (H _ Hm b _ Hy) as (b' & w1 & l & w2 & K).
    exists b', w1, l, w2. eapply in_child; [eapply ch_if; eassumption|exact K].
  - apply in_concat in Hy as (x & Hx & Hy). apply in_map_iff in Hx as ([w' t ns] & <- & Hc). apply names_of_in in Hy as (m & Hm & Hy).
    rewrite Forall_forall in H. specialize (H _ Hc). cbn in H. rewrite Forall_forall in H. destruct (H _ Hm b _ Hy) as (b' & w1' & l & w2' & K).
    exists b', w1', l, w2'. eapply in_child; [eapply ch_match; eassumption|exact K].
  - apply in_app_iff in Hy as [Hy|Hy]; apply names_of_in in Hy as (m & Hm & Hy); rewrite Forall_forall in *.
    + destruct (H _ Hm true _ Hy) as (b' & w1' & l & w2' & K). exists b', w1', l, w2'. eapply in_child; [apply ch_body, Hm|exact K].
    + destruct (H0 _ Hm b _ Hy) as (b' & w1' & l & w2' & K). exists b', w1', l, w2'. eapply in_child; [apply ch_else, Hm|exact K].
  - destruct Hy as [<-|[]]. exists b, w1, l, w2. constructor.
  - destruct Hy.
  - apply names_of_in in Hy as (m & Hm & Hy). rewrite Forall_forall in H. destruct (H _ Hm b _ Hy) as (b' & w1' & l' & w2' & K).
    exists b', w1', l', w2'. eapply in_child; [apply ch_filter, Hm|exact K].
Qed.
Lemma no_names ns b : (forall m b' w1 y l w2, In m ns -> ~ inside b m b' (NBlockDef w1 y l w2)) -> names_of ns = [].
Proof.
  intros H. destruct (names_of ns) as [|y r] eqn:E; [reflexivity|]. exfalso. assert (Hy : In y (names_of ns)) by (rewrite E; left; reflexivity).
  apply names_of_in in Hy as (m & Hm & Hy). destruct (block_names_inside m b y Hy) as (b' & w1 & l & w2 & K). exact (H _ _ _ _ _ _ Hm K).
Qed.

(** ** Parsed nodes are calm *)
Section Calm.
  Variable inc : str -> Prop.
  Notation calm := (calm inc).
  Definition placed (b : bool) (n : node) : Prop := forall b1 m b2 w1 x l w2, inside b n b1 m -> encloses m = true -> ~ inside b1 m b2 (NBlockDef w1 x l w2).
  Lemma placed_child b n b' m : placed b n -> child b n b' m -> placed b' m.
  Proof. intros H K b1 k b2 w1 x l w2 I1. apply (H b1 k b2 w1 x l w2). eapply in_child; eassumption. Qed.
  Definition to_calm (n : node) : Prop := forall b, wf_node b n -> tidy n = true -> placed b n -> (forall p, mentions false [n] p -> inc p) -> calm n.
  Lemma calm_many l b : Forall to_calm l -> Forall (wf_node b) l -> forallb tidy l = true -> (forall m, In m l -> placed b m) -> (forall p, mentions false l p -> inc p) -> Forall calm l.
  Proof.
    intros H W T PL M. apply Forall_forall. intros m Hm. rewrite Forall_forall in *. rewrite forallb_forall in T. apply (H m Hm b); auto.
    intros p Hp. apply M. eapply mentions_incl; [exact Hp|]. intros x [<-|[]]. exact Hm.
  Qed.
  Lemma tidy_many l : apart l && forallb tidy l = true -> apart l = true /\ forallb tidy l = true.
  Proof. apply andb_true_iff. Qed.
  Lemma calm_of n : to_calm n.
  Proof.
    induction n using node_ind_all; intros b W T PL M.
    - destruct n; try contradiction; inversion W; subst; constructor; auto using wf_fed.
      + match goal with K : wf_literal _ |- _ => destruct K as (_ & _ & K & _); exact K end.
      + match goal with K : call_args _ |- _ => destruct K as (pos & named & -> & K1 & K2 & _) end. apply forallb_forall. intros e He. apply in_app_iff in He as [He|He].
        * rewrite Forall_forall in K1. apply wf_fed, K1, He.
        * apply in_map_iff in He as ([k v] & <- & Hkv). rewrite Forall_forall in K2. cbn [fed fst snd]. apply wf_fed. apply (K2 _ Hkv).
      + apply M. eapply m_include. left. reflexivity.
      + match goal with K : wf_literal _ |- _ => destruct K as (_ & _ & K & _); exact K end.
    - inversion W; subst. constructor; [discriminate|]. apply Forall_forall. intros [w' t ns] Hc. rewrite Forall_forall in *.
      match goal with K : forall x, In x _ -> wf_cond _ x |- _ => specialize (K _ Hc); inversion K; subst end. specialize (H _ Hc). cbn in H.
      cbn [tidy] in T. rewrite forallb_forall in T. specialize (T _ Hc). cbn beta iota in T. apply tidy_many in T as [T1 T2].
      constructor; [|exact T1|].
      + intros x Hx. apply wf_fed. match goal with K : forall x, t = Some x -> wf_test x |- _ => apply (K _ Hx) end.
      + apply (calm_many ns b); auto.
        * intros m Hm. eapply placed_child; [exact PL|]. eapply ch_if; eassumption.
        * intros p Hp. apply M. eapply m_body; [left; reflexivity|eapply in_cond; exact Hc|exact Hp].
    - inversion W; subst. constructor; [apply wf_fed; assumption|discriminate|]. apply Forall_forall. intros [w' t ns] Hc. rewrite Forall_forall in *.
      match goal with K : forall x, In x _ -> wf_when _ x |- _ => specialize (K _ Hc); inversion K; subst end. specialize (H _ Hc). cbn in H.
      cbn [tidy] in T. rewrite forallb_forall in T. specialize (T _ Hc). cbn beta iota in T. apply tidy_many in T as [T1 T2].
      constructor; [exact T1|]. apply (calm_many ns b); auto.
      * intros m Hm. eapply placed_child; [exact PL|]. eapply ch_match; eassumption.
      * intros p Hp. apply M. eapply m_body; [left; reflexivity| |exact Hp]. cbn [bodies]. apply in_map_iff. exists (When w' t ns). auto.
    - inversion W; subst. cbn [tidy] in T. apply andb_true_iff in T as [T1 T2]. apply tidy_many in T1 as [T1 T3]. apply tidy_many in T2 as [T2 T4].
      constructor; auto using wf_fed.
      + apply (calm_many body true); auto; [intros m Hm; eapply placed_child; [exact PL|]; apply ch_body, Hm|]. intros p Hp. apply M. eapply m_body; [left; reflexivity|left; reflexivity|exact Hp].
      + apply (calm_many els b); auto; [intros m Hm; eapply placed_child; [exact PL|]; apply ch_else, Hm|]. intros p Hp. apply M. eapply m_body; [left; reflexivity|right; left; reflexivity|exact Hp].
    - inversion W; subst. cbn [tidy] in T. apply tidy_many in T as [T1 T2]. constructor; [exact T1|].
      apply (calm_many l b); auto; [intros m Hm; eapply placed_child; [exact PL|]; apply ch_block, Hm|]. intros p Hp. apply M. eapply m_body; [left; reflexivity|left; reflexivity|exact Hp].
    - constructor.
    - inversion W; subst. cbn [tidy] in T. apply tidy_many in T as [T1 T2]. constructor; [intros v; apply block_filter_fed; assumption|exact T1| |].
      + apply (calm_many l b); auto; [intros m Hm; eapply placed_child; [exact PL|]; apply ch_filter, Hm|]. intros p Hp. apply M. eapply m_filter; [left; reflexivity|exact Hp].
      + apply (no_names l b). intros m b' w1' y l' w2' Hm K. apply (PL b (NFilterBlock w1 x a l w2) b' w1' y l' w2'); [constructor|reflexivity|].
        eapply in_child; [apply ch_filter, Hm|exact K].
  Qed.
End Calm.

(** ** Contexts *)
Section Macros.
  Variable find : str -> str -> res str.
  Variable path : str.
  Definition macro_at (x : str) (d : macro_def) (ns : list node) : Prop := exists w1 w2, In (NMacro w1 x (k_args d) (k_nodes d) w2) ns.
  Lemma context_nodes_macros top : forall ns c stack c' stack', context_nodes find path top ns c stack = Ok (c', stack') ->
    forall x d, In (x, d) (c_macros c') -> In (x, d) (c_macros c) \/ (top = true /\ macro_at x d ns).
  Proof.
    induction ns as [|n ns IH]; intros c stack c' stack' E x d H; cbn [context_nodes] in E; [injection E as <- <-; auto|].
    apply rbind_inv in E as ([c1 more] & E1 & E). destruct (IH _ _ _ _ E x d H) as [K|[-> (w1 & w2 & K)]]; [|right; split; [reflexivity|exists w1, w2; right; exact K]].
    destruct n; cbn [context_node] in E1; try (injection E1 as <- <-; left; exact K).
    - destruct top; [|discriminate E1]. destruct (c_extends c); [discriminate E1|]. apply rbind_inv in E1 as (q & _ & E1). injection E1 as <- <-. left. exact K.
    - destruct top; [|discriminate E1]. apply rbind_inv in E1 as (q & _ & E1). injection E1 as <- <-. left. exact K.
    - destruct top; [|discriminate E1]. injection E1 as <- <-. cbn [c_macros] in K. apply FlatFacts.in_put in K as [K|[-> ->]]; [left; exact K|].
      right. split; [reflexivity|]. exists w1, w2. left. reflexivity.
  Qed.
  Lemma context_loop_macros : forall fuel top stack c c', context_loop find fuel path top stack c = GOk c' ->
    forall x d, In (x, d) (c_macros c') -> In (x, d) (c_macros c) \/ (top = true /\ exists ns stack', stack = ns :: stack' /\ macro_at x d ns).
  Proof.
    induction fuel as [|f IH]; intros top stack c c' E x d H; destruct stack as [|ns stack]; cbn [context_loop] in E; try (injection E as <-; auto); [discriminate E|].
    apply gbind_inv in E as ([c1 st1] & E1 & E). apply of_res_inv in E1. destruct (IH _ _ _ _ E x d H) as [K|[K _]]; [|discriminate K].
    destruct (context_nodes_macros _ _ _ _ _ _ E1 x d K) as [K'|[-> K']]; [left; exact K'|right]. split; [reflexivity|]. exists ns, stack. auto.
  Qed.
  Lemma context_macros nodes c x d : context_new find path nodes = GOk c -> In (x, d) (c_macros c) -> macro_at x d nodes.
  Proof. intros E H. destruct (context_loop_macros _ _ _ _ _ E x d H) as [[]|[_ (ns & stack & [= <- _] & K)]]. exact K. Qed.
  Lemma of_res_safe {A} (r : res A) : r <> Panic -> gsafe (of_res r) any.
  Proof. destruct r; intros H; [exact I|exact I|exact (H eq_refl)]. Qed.
  Hypothesis Hfind : forall a b, find a b <> Panic.
  Lemma find_safe a b : rsafe (find a b) any.
  Proof. specialize (Hfind a b). destruct (find a b); [exact I|exact I|exact (Hfind eq_refl)]. Qed.
  Lemma context_nodes_safe top : forall ns c stack, rsafe (context_nodes find path top ns c stack) any.
  Proof.
    induction ns as [|n ns IH]; intros c stack; [exact I|]. cbn [context_nodes]. eapply rsafe_bind with (Q := any).
    - destruct n; cbn [context_node]; try exact I; destruct top; try exact I.
      + destruct (c_extends c); [exact I|]. eapply rsafe_bind; [apply find_safe|]. intros; exact I.
      + eapply rsafe_bind; [apply find_safe|]. intros; exact I.
    - intros [c' more] _. apply IH.
  Qed.
  Lemma context_safe nodes : gsafe (context_new find path nodes) any.
  Proof.
    unfold context_new. generalize (S (nodes_size nodes)) as fuel. intros fuel. generalize true, [nodes], {| c_nodes := nodes; c_extends := None; c_blocks := []; c_macros := []; c_imports := [] |}.
    induction fuel as [|f IH]; intros top stack c; destruct stack as [|ns stack]; try exact I. cbn [context_loop].
    eapply gsafe_bind; [apply gsafe_res, context_nodes_safe|]. intros [c' st'] _. apply IH.
  Qed.
End Macros.

(** ** Blocks of contexts *)
Section Within.
  Variable inc : str -> Prop.
  Lemma body_calm n b : calm inc n -> In b (bodies n) -> calm_list inc b.
  Proof.
    intros H Hb. destruct n; cbn [bodies] in Hb; try contradiction; inversion H; subst.
    - apply in_map_iff in Hb as ([w' t ns] & <- & Hc). rewrite Forall_forall in *. match goal with K : forall x, In x branches -> _ |- _ => specialize (K _ Hc); inversion K; subst end. split; assumption.
    - apply in_map_iff in Hb as ([w' t ns] & <- & Hc). rewrite Forall_forall in *. match goal with K : forall x, In x arms -> _ |- _ => specialize (K _ Hc); inversion K; subst end. split; assumption.
    - destruct Hb as [<-|[<-|[]]]; split; assumption.
    - destruct Hb as [<-|[]]. split; assumption.
  Qed.
  Lemma body_nest n b : In b (bodies n) -> nestl b <= nest n.
  Proof.
    intros Hb. destruct n; cbn [bodies] in Hb; try contradiction.
    - apply in_map_iff in Hb as ([w' t ns] & <- & Hc). pose proof (nest_if w _ _ _ _ Hc). lia.
    - apply in_map_iff in Hb as ([w' t ns] & <- & Hc). pose proof (nest_match w1 e _ w2 _ _ _ Hc). lia.
    - rewrite nest_loop. destruct Hb as [<-|[<-|[]]]; lia.
    - destruct Hb as [<-|[]]. rewrite nest_block. lia.
  Qed.
  Lemma within_calm n l : within n l -> calm_list inc l -> calm inc n /\ nest n <= nestl l.
  Proof.
    induction 1 as [l H|l m b Hm Hb H IH]; intros [A F]; rewrite Forall_forall in F.
    - split; [apply F, H|apply nestl_in, H].
    - destruct (IH (body_calm _ _ (F _ Hm) Hb)) as [K1 K2]. split; [exact K1|]. pose proof (body_nest _ _ Hb). pose proof (nestl_in _ _ Hm). lia.
  Qed.
  Lemma within_trans n m l : within n (match m with NBlockDef _ _ ns _ => ns | _ => [] end) -> within m l -> within n l.
  Proof.
    intros H. induction 1 as [l K|l k b Hk Hb K IH].
    - destruct m; try solve [exfalso; inversion H; subst; match goal with K0 : In _ [] |- _ => destruct K0 end]. eapply within_deeper; [exact K|left; reflexivity|exact H].
    - eapply within_deeper; [exact Hk|exact Hb|exact IH].
  Qed.
  Lemma names_within n : calm inc n -> forall y, In y (block_names n) -> exists w1 ns w2, within (NBlockDef w1 y ns w2) [n].
  Proof.
    assert (G : forall l b n, In b (bodies n) -> (forall m, In m b -> calm inc m -> forall y, In y (block_names m) -> exists w1 ns w2, within (NBlockDef w1 y ns w2) [m]) ->
      b = l -> calm inc n -> forall y, In y (names_of l) -> exists w1 ns w2, within (NBlockDef w1 y ns w2) [n]).
    { intros l b k Hb IH -> HC y Hy. apply names_of_in in Hy as (m & Hm & Hy). destruct (body_calm _ _ HC Hb) as [_ F]. rewrite Forall_forall in F.
      destruct (IH m Hm (F _ Hm) y Hy) as (w1 & ns & w2 & K). exists w1, ns, w2. eapply within_deeper; [left; reflexivity|exact Hb|].
      assert (MI : forall a c, within (NBlockDef w1 y ns w2) a -> incl a c -> within (NBlockDef w1 y ns w2) c).
      { intros a c [? Q|? ? ? Q1 Q2 Q3] HI; [apply within_here, HI, Q|eapply within_deeper; [apply HI; exact Q1|exact Q2|exact Q3]]. }
      apply (MI _ _ K). intros z [<-|[]]. exact Hm. }
    induction n using node_ind_all; intros HC y Hy.
    - destruct n; contradiction.
    - cbn [block_names] in Hy. apply in_concat in Hy as (x & Hx & Hy). apply in_map_iff in Hx as ([w' t ns] & <- & Hc). rewrite Forall_forall in H. specialize (H _ Hc). cbn in H. rewrite Forall_forall in H.
      eapply (G ns ns); [eapply in_cond; exact Hc|exact H|reflexivity|exact HC|exact Hy].
    - cbn [block_names] in Hy. apply in_concat in Hy as (x & Hx & Hy). apply in_map_iff in Hx as ([w' t ns] & <- & Hc). rewrite Forall_forall in H. specialize (H _ Hc). cbn in H. rewrite Forall_forall in H.
      eapply (G ns ns); [cbn [bodies]; apply in_map_iff; exists (When w' t ns); auto|exact H|reflexivity|exact HC|exact Hy].
    - cbn [block_names] in Hy. rewrite Forall_forall in *. apply in_app_iff in Hy as [Hy|Hy].
      + eapply (G body body); [left; reflexivity|exact H|reflexivity|exact HC|exact Hy].
      + eapply (G els els); [right; left; reflexivity|exact H0|reflexivity|exact HC|exact Hy].
    - destruct Hy as [<-|[]]. exists w1, l, w2. apply within_here. left. reflexivity.
    - destruct Hy.
    - inversion HC; subst. cbn [block_names] in Hy. match goal with K : names_of l = [] |- _ => unfold names_of in K; rewrite K in Hy; destruct Hy end.
  Qed.
  Lemma names_list_within l : calm_list inc l -> forall y, In y (names_of l) -> exists w1 ns w2, within (NBlockDef w1 y ns w2) l.
  Proof.
    intros [_ F] y Hy. apply names_of_in in Hy as (n & Hn & Hy). rewrite Forall_forall in F. destruct (names_within n (F _ Hn) y Hy) as (w1 & ns & w2 & K). exists w1, ns, w2.
    assert (MI : forall a c, within (NBlockDef w1 y ns w2) a -> incl a c -> within (NBlockDef w1 y ns w2) c).
    { intros a c [? Q|? ? ? Q1 Q2 Q3] HI; [apply within_here, HI, Q|eapply within_deeper; [apply HI; exact Q1|exact Q2|exact Q3]]. }
    apply (MI _ _ K). intros z [<-|[]]. exact Hn.
  Qed.
End Within.

(** ** Whole templates *)
Section Templates.
  Variables (inp : ginput) (find : str -> str -> res str) (D : N) (templates : list (str * list node)).
  Hypothesis Hfind : forall a b, find a b <> Panic.
  Hypothesis HW : forall p ns, In (p, ns) templates -> Forall (wf_node false) ns /\ tidy_list ns = true.
  Hypothesis HD : forall p ns, In (p, ns) templates -> nestl ns <= D.
  Hypothesis HP : forall p ns, In (p, ns) templates -> blocks_placed ns.
  Hypothesis HR : forall p ns x q, In (p, ns) templates -> mentions true ns x -> find x p = Ok q -> get q templates <> None.
  Hypothesis HS : forall p ns x, In (p, ns) templates -> includes ns x -> find x p = find x (f_path inp).
  Hypothesis HM : get (f_path inp) templates <> None.

  Definition known_path (p : str) : Prop := forall q, find p (f_path inp) = Ok q -> get q templates <> None.
  Lemma template_calm p ns : In (p, ns) templates -> calm_list known_path ns /\
    forall w1 x args b w2, In (NMacro w1 x args b w2) ns -> calm_list known_path b /\ nestl b <= D /\ names_of b = [].
  Proof.
    intros Hin. destruct (HW _ _ Hin) as [W T]. apply andb_true_iff in T as [T1 T2]. pose proof (HP _ _ Hin) as PL.
    assert (PLn : forall n, In n ns -> placed false n).
    { intros n Hn b1 m b2 w1 x l w2 I1 I2 I3. apply (PL b1 m b2 w1 x l w2); [exists n; auto|exact I2|exact I3]. }
    assert (MI : forall p0, mentions true ns p0 -> includes ns p0 -> known_path p0).
    { intros p0 Hp0 Hi q Hq. apply (HR _ _ _ _ Hin Hp0). rewrite (HS _ _ _ Hin Hi). exact Hq. }
    rewrite Forall_forall in W. rewrite forallb_forall in T2. split.
    - split; [exact T1|]. apply Forall_forall. intros n Hn. apply (calm_of known_path n false); auto. intros p0 Hp0. apply MI.
      + apply mentions_top. eapply mentions_incl; [exact Hp0|]. intros x [<-|[]]. exact Hn.
      + destruct (mentions_inside _ _ Hp0 false) as (m & b' & w & [<-|[]] & K). exists b', w, n. auto.
    - intros w1 x args b w2 Hn. pose proof (T2 _ Hn) as T3. cbn [tidy] in T3. apply andb_true_iff in T3 as [T3 T4]. pose proof (W _ Hn) as Wn. inversion Wn; subst.
      split; [|split].
      + split; [exact T3|]. eapply (calm_many known_path b false); [apply Forall_forall; intros; apply calm_of|assumption|exact T4| |].
        * intros m Hm. eapply placed_child; [apply PLn, Hn|]. apply ch_macro, Hm.
        * intros p0 Hp0. apply MI; [eapply m_macro; eassumption|]. destruct (mentions_inside _ _ Hp0 false) as (m & b' & w & Hm & K).
          exists b', w, (NMacro w1 x args b w2). split; [exact Hn|]. eapply in_child; [apply ch_macro, Hm|exact K].
      + pose proof (nestl_in _ _ Hn) as K. rewrite nest_macro in K. pose proof (HD _ _ Hin). lia.
      + apply (no_names b false). intros m b' w1' y l w2' Hm K. apply (PL false (NMacro w1 x args b w2) b' w1' y l w2'); [exists (NMacro w1 x args b w2); split; [exact Hn|constructor]|reflexivity|].
        eapply in_child; [apply ch_macro, Hm|exact K].
  Qed.
  Lemma contexts_of : forall ts contexts, build_contexts find ts = GOk contexts ->
    (forall p, get p contexts = None <-> get p ts = None) /\
    (forall p c, get p contexts = Some c -> exists ns, In (p, ns) ts /\ context_new find p ns = GOk c).
  Proof.
    induction ts as [|[p ns] ts IH]; intros contexts E; cbn [build_contexts] in E.
    - injection E as <-. split; [intros; split; reflexivity|discriminate].
    - apply gbind_inv in E as (c1 & E1 & E). apply gbind_inv in E as (cs & E2 & E). injection E as <-. destruct (IH _ E2) as [K1 K2]. split.
      + intros q. cbn [get]. destruct (str_eqb q p); [split; discriminate|apply K1].
      + intros q c G. cbn [get] in G. destruct (str_eqb q p) eqn:EQ.
        * apply str_eqb_eq in EQ. subst q. injection G as <-. exists ns. split; [left; reflexivity|exact E1].
        * destruct (K2 _ _ G) as (ns' & A & B). exists ns'. split; [right; exact A|exact B].
  Qed.
  Lemma build_contexts_safe : forall ts, gsafe (build_contexts find ts) any.
  Proof.
    induction ts as [|[p ns] ts IH]; [exact I|]. cbn [build_contexts]. eapply gsafe_bind; [apply context_safe, Hfind|]. intros c _. eapply gsafe_bind; [exact IH|]. intros; exact I.
  Qed.
  Theorem build_safe fuel : N.of_nat fuel * (D + 1) <= 59 -> build_template inp find fuel templates <> GPanic.
  Proof.
    intros L. enough (G : gsafe (build_template inp find fuel templates) any) by (intros E; rewrite E in G; exact G).
    unfold build_template. pose proof (build_contexts_safe templates) as BS. destruct (build_contexts find templates) as [contexts| | |] eqn:E; try exact BS. cbn [gbind].
    destruct (contexts_of _ _ E) as [K1 K2].
    assert (IN : forall p, known_path p -> inc inp contexts find p) by (intros p Hp q Hq Hn; apply (Hp q Hq), K1, Hn).
    assert (MONO : forall n, calm known_path n -> calm (inc inp contexts find) n).
    { clear - IN. intros n. induction n using node_ind_all; intros HC.
      - destruct n; try contradiction; inversion HC; subst; constructor; auto.
      - inversion HC; subst. constructor; [assumption|]. rewrite Forall_forall in *. intros [w' t ns] Hc. specialize (H _ Hc). cbn in H. rewrite Forall_forall in H.
        match goal with K : forall x, In x cs -> calm_cond _ x |- _ => specialize (K _ Hc); inversion K; subst end. constructor; auto. rewrite Forall_forall in *. auto.
      - inversion HC; subst. constructor; [assumption|assumption|]. rewrite Forall_forall in *. intros [w' t ns] Hc. specialize (H _ Hc). cbn in H. rewrite Forall_forall in H.
        match goal with K : forall x, In x arms -> calm_when _ x |- _ => specialize (K _ Hc); inversion K; subst end. constructor; auto. rewrite Forall_forall in *. auto.
      - inversion HC; subst. constructor; auto; rewrite Forall_forall in *; auto.
      - inversion HC; subst. constructor; auto; rewrite Forall_forall in *; auto.
      - constructor.
      - inversion HC; subst. constructor; auto; rewrite Forall_forall in *; auto. }
    assert (ML : forall l, calm_list known_path l -> calm_list (inc inp contexts find) l).
    { intros l [A F]. split; [exact A|]. rewrite Forall_forall in *. auto. }
    assert (HC : forall p c, get p contexts = Some c -> ctx_calm inp contexts find D c /\ ctx_closed contexts c).
    { intros p c G. destruct (K2 _ _ G) as (ns & Hin & EC). destruct (template_calm _ _ Hin) as [TC TM]. pose proof (HD _ _ Hin) as DD.
      pose proof (context_new_spec _ _ _ _ EC) as (N & ND & _ & B1 & B2 & E1 & E2).
      assert (BK : forall x d, In (x, d) (c_blocks c) -> within (NBlockDef (b_ws1 d) x (b_nodes d) (b_ws2 d)) ns).
      { intros x d H. apply B1. clear - ND H. induction (c_blocks c) as [|[k e] l IH]; [destruct H|]. cbn [get]. inversion ND as [|? ? K1 K2]; subst. destruct H as [[= -> ->]|H]; [rewrite str_eqb_refl; reflexivity|].
        destruct (str_eqb x k) eqn:EQ; [|auto]. apply str_eqb_eq in EQ. subst k. exfalso. apply K1. apply in_map_iff. exists (x, d). auto. }
      assert (WK : forall w1 y l w2, within (NBlockDef w1 y l w2) ns -> get y (c_blocks c) <> None).
      { intros w1 y l w2 H. apply (B2 y {| b_ws1 := w1; b_name := y; b_nodes := l; b_ws2 := w2 |}). split; [exact H|reflexivity]. }
      assert (BC : forall x d, In (x, d) (c_blocks c) -> calm_list known_path (b_nodes d) /\ nestl (b_nodes d) <= D).
      { intros x d H. destruct (within_calm _ _ _ (BK _ _ H) TC) as [Q1 Q2]. rewrite nest_block in Q2. inversion Q1; subst. split; [split; assumption|lia]. }
      split.
      - constructor.
        + rewrite N. split; [apply ML, TC|exact DD].
        + intros EN q Hq. rewrite N in Hq. destruct (E2 q (within_here _ _ Hq)) as (_ & p' & _ & K). congruence.
        + intros x d H. destruct (BC _ _ H). split; [apply ML; assumption|assumption].
        + intros x d H. destruct (context_macros _ _ _ _ _ _ EC H) as (w1 & w2 & Hm). destruct (TM _ _ _ _ _ Hm) as (Q1 & Q2 & Q3). split; [split; [apply ML, Q1|exact Q2]|exact Q3].
      - constructor.
        + intros y Hy. rewrite N in Hy. destruct (names_list_within _ _ TC y Hy) as (w1 & l & w2 & K). exact (WK _ _ _ _ K).
        + intros x d y H Hy. destruct (names_list_within _ _ (proj1 (BC _ _ H)) y Hy) as (w1 & l & w2 & K). apply (WK w1 y l w2). eapply within_trans; [|exact (BK _ _ H)]. exact K.
        + intros q Hq Hn. destruct (E1 _ Hq) as (x & Hx & Hf). apply (HR _ _ _ _ Hin (m_extends _ _ Hx) Hf), K1, Hn. }
    destruct (get (f_path inp) contexts) as [ctx|] eqn:G; [|exact (HM (proj1 (K1 _) G))]. destruct (HC _ _ G) as [C1 C2].
    eapply gsafe_bind with (Q := fun her => her_ok inp contexts find D her /\ match her with Some _ => True | None => c_extends ctx = None end).
    { assert (GH : gsafe (let* h := heritage_new fuel contexts ctx in match f_block inp with
         | Some b => match get b (h_blocks h) with None => GErr (lit "cannot find block") | Some _ => GOk (Some h) end
         | None => GOk (Some h) end) (fun her => her_ok inp contexts find D her /\ match her with Some _ => True | None => c_extends ctx = None end)).
      { eapply gsafe_bind; [apply heritage_new_safe; [exact HC|exact C1|exact C2]|]. intros h Hh.
        assert (Q : her_ok inp contexts find D (Some h) /\ True) by (split; [intros h' [= <-]; exact Hh|exact I]).
        destruct (f_block inp); [|exact Q]. destruct (get s (h_blocks h)); [exact Q|exact I]. }
      destruct (c_blocks ctx); [|exact GH]. destruct (c_extends ctx) eqn:EX; [exact GH|]. split; [discriminate|reflexivity]. }
    cbn beta. intros her [HH1 HH2]. unfold impl_template. set (root := match her with Some h => h_root h | None => ctx end).
    assert (R : ctx_calm inp contexts find D root /\ c_extends root = None /\ names_ok her (c_nodes root)).
    { subst root. destruct her as [h|]; [destruct (HH1 _ eq_refl) as [R1 R2 R3 R4]; split; [exact R1|]; split; [exact R2|]; intros h' [= <-]; exact R3|]. split; [exact C1|]. split; [exact HH2|discriminate]. }
    destruct R as (R1 & R2 & R3). clearbody root.
    assert (HX : forall f, expands_safely inp contexts find D (handle inp contexts find f) (N.of_nat f * (D + 1))).
    { induction f as [|f IH]; [intros ? ? ? ? ? ? ? ? ? _ _ _ _ _ _ _ _ _ _; exact I|]. exact (handle_nodes_safe inp contexts find D Hfind HC f (handle inp contexts find f) IH). }
    eapply gsafe_bind.
    { apply (HX fuel her root (c_nodes root) LTop (initial inp 2) 2 1%nat false None); try assumption.
      - apply R1.
      - intros _. apply (cc_top _ _ _ _ _ R1 R2).
      - discriminate.
      - lia.
      - lia.
      - constructor; cbn; auto. lia.
      - reflexivity. }
    cbn beta. intros [[code z] st] Hst. cbn [snd] in Hst.
    eapply gsafe_bind; [eapply line_ok; [exact Hst|lia]|]. intros _ _. eapply gsafe_bind; [apply (close_ok 1 1%nat false None); [exact Hst|lia]|]. cbn beta. intros st1 [H1 _].
    eapply gsafe_bind; [eapply line_ok; [exact H1|lia]|]. intros _ _. eapply gsafe_bind; [apply (close_ok 0 1%nat false None); [exact H1|lia]|]. cbn beta. intros st2 _. exact I.
  Qed.
End Templates.
