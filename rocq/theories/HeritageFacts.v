(** * Proofs about Heritage.v. *)
From Coq Require Import Lia ZArith ZifyBool ZifyNat ZifyN.
From Verif Require Import Base Ws Ast GenExpr Heritage Gen HeritageSpec.
Local Open Scope N_scope.

Lemma get_put_same {A} k (v : A) l : get k (put k v l) = Some v.
Proof.
  induction l as [|[k' v'] l IH]; cbn [put get]; [now rewrite str_eqb_refl|].
  destruct (str_eqb k k') eqn:E; cbn [get]; [now rewrite str_eqb_refl|]. rewrite E. exact IH.
Qed.
Lemma get_put_other {A} k k' (v : A) l : k <> k' -> get k (put k' v l) = get k l.
Proof.
  intros H. induction l as [|[k2 v2] l IH]; cbn [put get].
  - apply str_eqb_neq in H. now rewrite H.
  - destruct (str_eqb k' k2) eqn:E; cbn [get].
    + apply str_eqb_eq in E as <-. apply str_eqb_neq in H. now rewrite H.
    + destruct (str_eqb k k2); [reflexivity|exact IH].
Qed.
Lemma get_put {A} k k' (v : A) l : get k (put k' v l) = if str_eqb k k' then Some v else get k l.
Proof.
  destruct (str_eqb k k') eqn:E; [apply str_eqb_eq in E as ->; apply get_put_same|apply get_put_other, str_eqb_neq, E].
Qed.
Lemma get_In {A} k (v : A) l : get k l = Some v -> In (k, v) l.
Proof.
  induction l as [|[k' v'] l IH]; cbn [get]; [discriminate|]. destruct (str_eqb k k') eqn:E.
  - apply str_eqb_eq in E as <-. intros [= <-]. left. reflexivity.
  - intros H. right. apply IH, H.
Qed.
Lemma In_get {A} k (v : A) l : In (k, v) l -> get k l <> None.
Proof.
  induction l as [|[k' v'] l IH]; cbn [get]; [intros []|]. intros [[= -> ->]|H]; [rewrite str_eqb_refl; discriminate|].
  destruct (str_eqb k k'); [discriminate|apply IH, H].
Qed.
Lemma put_keys {A} k (v : A) l x : In x (map fst (put k v l)) <-> x = k \/ In x (map fst l).
Proof.
  induction l as [|[k' v'] l IH]; cbn [put map fst].
  - cbn. intuition.
  - destruct (str_eqb k k') eqn:E; cbn [map fst In]; [apply str_eqb_eq in E as <-; intuition congruence|]. rewrite IH. intuition congruence.
Qed.
Lemma put_NoDup {A} k (v : A) l : NoDup (map fst l) -> NoDup (map fst (put k v l)).
Proof.
  induction l as [|[k' v'] l IH]; cbn [put map fst]; intros H; [constructor; [intros []|constructor]|].
  inversion H as [|? ? Hn Hl]; subst. destruct (str_eqb k k') eqn:E; cbn [map fst]; constructor.
  - apply str_eqb_eq in E as <-. exact Hn.
  - exact Hl.
  - rewrite put_keys. intros [->|Hi]; [rewrite str_eqb_refl in E; discriminate|contradiction].
  - apply IH, Hl.
Qed.
Lemma get_None_key {A} k (l : list (str * A)) : get k l = None <-> ~ In k (map fst l).
Proof.
  induction l as [|[k' v'] l IH]; cbn [get map fst In]; [intuition|]. destruct (str_eqb k k') eqn:E.
  - apply str_eqb_eq in E as <-. intuition discriminate.
  - apply str_eqb_neq in E. rewrite IH. intuition.
Qed.

(** ** Inheritance *)
Lemma push_block_get c x bs k : get k (push_block c x bs) =
  if str_eqb k (fst x) then Some (match get k bs with Some l => l ++ [(c, snd x)] | None => [(c, snd x)] end) else get k bs.
Proof. unfold push_block. rewrite get_put. destruct (str_eqb k (fst x)) eqn:E; [apply str_eqb_eq in E as ->|]; reflexivity. Qed.
Definition add_defs (a : option (list (context * block_def))) (b : list (context * block_def)) : option (list (context * block_def)) :=
  match a, b with None, [] => None | None, l => Some l | Some a, b => Some (a ++ b) end.
Lemma push_all_get c l bs k : NoDup (map fst l) ->
  get k (fold_left (fun bs x => push_block c x bs) l bs) =
  add_defs (get k bs) (match get k l with Some d => [(c, d)] | None => [] end).
Proof.
  revert bs. induction l as [|[k' d] l IH]; intros bs ND; cbn [fold_left get].
  - destruct (get k bs) as [a|]; [cbn; now rewrite app_nil_r|reflexivity].
  - inversion ND as [|? ? Hn Hl]; subst. rewrite IH by exact Hl. rewrite push_block_get. cbn [fst snd].
    destruct (str_eqb k k') eqn:E; [|reflexivity]. apply str_eqb_eq in E as ->.
    replace (get k' l) with (@None block_def) by (symmetry; apply get_None_key; exact Hn).
    destruct (get k' bs) as [a|]; cbn; [now rewrite app_nil_r|reflexivity].
Qed.
Lemma add_defs_app a b c : add_defs (add_defs a b) c = add_defs a (b ++ c).
Proof.
  destruct a as [a|]; cbn; [now rewrite app_assoc|]. destruct b; [destruct c; reflexivity|reflexivity].
Qed.
Lemma definitions_cons x c l : definitions x (c :: l) = (match get x (c_blocks c) with Some d => [(c, d)] | None => [] end) ++ definitions x l.
Proof. cbn [definitions]. destruct (get x (c_blocks c)); reflexivity. Qed.
Lemma last_cons {A} (a d : A) l : last (a :: l) d = last l a.
Proof. revert a d. induction l as [|b l IH]; intros a d; [reflexivity|]. change (last (b :: l) d = last (b :: l) a). rewrite (IH b d), (IH b a). reflexivity. Qed.
Definition blocks_ok (contexts : list (str * context)) : Prop := forall p c, get p contexts = Some c -> NoDup (map fst (c_blocks c)).
Lemma heritage_loop_spec fuel contexts c bs h : blocks_ok contexts -> heritage_loop fuel contexts c bs = GOk h ->
  exists l, lineage contexts c (c :: l) /\ h_root h = last l c /\ forall x, get x (h_blocks h) = add_defs (get x bs) (definitions x l).
Proof.
  intros OK. revert c bs. induction fuel as [|f IH]; intros c bs; cbn [heritage_loop]; destruct (c_extends c) as [p|] eqn:Ex; try discriminate.
  - intros [= <-]. exists []. split; [constructor; exact Ex|]. split; [reflexivity|]. intros x. cbn. destruct (get x bs); cbn; [now rewrite app_nil_r|reflexivity].
  - destruct (get p contexts) as [c'|] eqn:G; [|discriminate]. intros H. apply IH in H as (l & L & R & D).
    exists (c' :: l). split; [econstructor; eauto|]. split.
    + rewrite R, last_cons. reflexivity.
    + intros x. rewrite D, push_all_get by (eapply OK; eauto). rewrite add_defs_app. now rewrite definitions_cons.
  - intros [= <-]. exists []. split; [constructor; exact Ex|]. split; [reflexivity|]. intros x. cbn. destruct (get x bs); cbn; [now rewrite app_nil_r|reflexivity].
Qed.
Lemma get_map {A B} (f : A -> B) k (l : list (str * A)) : get k (map (fun x => (fst x, f (snd x))) l) = option_map f (get k l).
Proof. induction l as [|[k' v] l IH]; cbn [map get fst snd]; [reflexivity|]. destruct (str_eqb k k'); [reflexivity|exact IH]. Qed.
Theorem heritage_new_spec fuel contexts c h : blocks_ok contexts -> heritage_new fuel contexts c = GOk h ->
  exists l, lineage contexts c l /\ last l c = h_root h /\
    forall x, get x (h_blocks h) = match definitions x l with [] => None | ds => Some ds end.
Proof.
  intros OK H. unfold heritage_new in H. apply heritage_loop_spec in H as (l & L & R & D); [|exact OK].
  exists (c :: l). split; [exact L|]. split; [rewrite R; apply last_cons|].
  intros x. rewrite D, definitions_cons.
  rewrite (get_map (fun d => [(c, d)])). destruct (get x (c_blocks c)); cbn; [reflexivity|]. destruct (definitions x l); reflexivity.
Qed.
Lemma lineage_det contexts c l l' : lineage contexts c l -> lineage contexts c l' -> l = l'.
Proof.
  intros H. revert l'. induction H as [c E|c p c' l E G L IH]; intros l2 H2; inversion H2; subst; try congruence.
  f_equal. apply IH. congruence.
Qed.
(** A finite line of parents is all it takes. *)
Theorem heritage_new_ok contexts c l fuel : lineage contexts c l -> (length l <= S fuel)%nat -> exists h, heritage_new fuel contexts c = GOk h.
Proof.
  intros L. unfold heritage_new. generalize (map (fun x => (fst x, [(c, snd x)])) (c_blocks c)) as bs. revert fuel.
  induction L as [c E|c p c' l E G L IH]; intros fuel bs Hf.
  - destruct fuel; cbn [heritage_loop]; rewrite E; eauto.
  - destruct fuel as [|f]; cbn [length] in Hf; [inversion L; subst; cbn in Hf; lia|]. cbn [heritage_loop]. rewrite E, G.
    apply IH. lia.
Qed.

(** ** Contexts *)
Definition weight (stack : list (list node)) : nat := fold_right (fun l a => (S (nodes_size l) + a)%nat) O stack.
Lemma weight_app a b : weight (a ++ b) = (weight a + weight b)%nat.
Proof. induction a as [|l a IH]; cbn [app weight fold_right]; [reflexivity|]. fold (weight (a ++ b)) (weight a). rewrite IH. lia. Qed.
Lemma weight_rev a : weight (rev a) = weight a.
Proof. induction a as [|l a IH]; [reflexivity|]. cbn [rev]. rewrite weight_app, IH. cbn [weight fold_right]. fold (weight a). lia. Qed.
Lemma sum_eq l : (fix sum (l : list node) : nat := match l with [] => O | n :: l' => (node_size n + sum l')%nat end) l = nodes_size l.
Proof. induction l as [|n l IH]; [reflexivity|]. cbn [nodes_size]. now rewrite IH. Qed.
Lemma bodies_weight n : (weight (bodies n) < node_size n)%nat.
Proof.
  destruct n; cbn [bodies node_size weight fold_right]; try lia.
  - induction branches as [|[w0 t ns] cs IH]; cbn [map fold_right]; [lia|]. pose proof (sum_eq ns). lia.
  - induction arms as [|[w0 t ns] cs IH]; cbn [map fold_right]; [lia|]. pose proof (sum_eq ns). lia.
  - pose proof (sum_eq body). pose proof (sum_eq else_nodes). lia.
  - pose proof (sum_eq nodes). lia.
Qed.

Lemma rbind_inv {A B} (r : res A) (k : A -> res B) x : rbind r k = Ok x -> exists a, r = Ok a /\ k a = Ok x.
Proof. destruct r; cbn; [eauto|discriminate..]. Qed.
Lemma gbind_inv {A B} (r : gres A) (k : A -> gres B) x : gbind r k = GOk x -> exists a, r = GOk a /\ k a = GOk x.
Proof. destruct r; cbn; [eauto|discriminate..]. Qed.
Lemma of_res_inv {A} (r : res A) x : of_res r = GOk x -> r = Ok x.
Proof. destruct r; cbn; congruence. Qed.

Section Context.
  Variable find : str -> str -> res str.
  Variable path : str.
  (** What a node adds *)
  Lemma context_node_spec top n c c' more : context_node find path top n c = Ok (c', more) ->
    more = bodies n /\ c_nodes c' = c_nodes c /\
    c_blocks c' = match n with
                  | NBlockDef w1 x ns w2 => put x {| b_ws1 := w1; b_name := x; b_nodes := ns; b_ws2 := w2 |} (c_blocks c)
                  | _ => c_blocks c
                  end /\
    c_macros c' = match n with
                  | NMacro w1 x a ns w2 => put x {| k_ws1 := w1; k_name := x; k_args := a; k_nodes := ns; k_ws2 := w2 |} (c_macros c)
                  | _ => c_macros c
                  end /\
    match n with
    | NExtends p => top = true /\ c_extends c = None /\ exists q, find p path = Ok q /\ c_extends c' = Some q
    | _ => c_extends c' = c_extends c
    end /\
    match n with
    | NImport _ p s => top = true /\ exists q, find p path = Ok q /\ c_imports c' = put s q (c_imports c)
    | _ => c_imports c' = c_imports c
    end.
  Proof.
    destruct n; cbn [context_node bodies]; try (intros [= <- <-]; repeat split; reflexivity).
    - destruct top; [|discriminate]. destruct (c_extends c) eqn:E; [discriminate|]. intros H. apply rbind_inv in H as (q & F & [= <- <-]).
      cbn. repeat split; eauto.
    - destruct top; [|discriminate]. intros H. apply rbind_inv in H as (q & F & [= <- <-]). cbn. repeat split; eauto.
    - destruct top; [|discriminate]. intros [= <- <-]. cbn. repeat split; reflexivity.
  Qed.
  Lemma context_nodes_spec top ns : forall c stack c' stack', context_nodes find path top ns c stack = Ok (c', stack') ->
    (weight stack' <= nodes_size ns + weight stack)%nat /\ (forall b, In b stack' <-> (exists m, In m ns /\ In b (bodies m)) \/ In b stack) /\
    c_nodes c' = c_nodes c /\ (NoDup (map fst (c_blocks c)) -> NoDup (map fst (c_blocks c'))) /\
    (NoDup (map fst (c_macros c)) -> NoDup (map fst (c_macros c'))) /\
    (forall x d, get x (c_blocks c') = Some d -> get x (c_blocks c) = Some d \/ (In (NBlockDef (b_ws1 d) x (b_nodes d) (b_ws2 d)) ns /\ b_name d = x)) /\
    (forall x, (get x (c_blocks c) <> None \/ exists w1 b w2, In (NBlockDef w1 x b w2) ns) -> get x (c_blocks c') <> None) /\
    (forall p, c_extends c' = Some p -> c_extends c = Some p \/ (top = true /\ exists q, In (NExtends q) ns /\ find q path = Ok p)) /\
    (forall q, In (NExtends q) ns -> top = true /\ exists p, find q path = Ok p /\ c_extends c' = Some p) /\
    (c_extends c <> None -> c_extends c' = c_extends c).
  Proof.
    induction ns as [|n ns IH]; intros c stack c' stack'; cbn [context_nodes nodes_size].
    - intros [= <- <-]. split; [lia|]. split; [intros b; split; [auto|intros [(m & [] & _)|H]; exact H]|].
      split; [reflexivity|]. split; [auto|]. split; [auto|]. split; [auto|].
      split; [intros x [H|(w1 & b & w2 & [])]; exact H|]. split; [auto|]. split; [intros q []|auto].
    - intros H. apply rbind_inv in H as ([c1 more] & H1 & H2). apply context_node_spec in H1 as (-> & N1 & B1 & K1 & E1 & I1).
      apply IH in H2 as (W & S & N2 & ND & NK & G1 & G2 & X1 & X2 & X3).
      rewrite weight_app, weight_rev in W. pose proof (bodies_weight n).
      split; [lia|]. split.
      { intros b. rewrite S, in_app_iff, <- in_rev. split.
        - intros [(m & Hm & Hb)|[Hb|Hb]]; [left; exists m; split; [right|]; assumption|left; exists n; split; [left; reflexivity|assumption]|right; assumption].
        - intros [(m & [<-|Hm] & Hb)|Hb]; [right; left; assumption|left; eauto|right; right; assumption]. }
      split; [congruence|]. split.
      { intros Hd. apply ND. rewrite B1. destruct n; auto. apply put_NoDup, Hd. }
      split.
      { intros Hd. apply NK. rewrite K1. destruct n; auto. apply put_NoDup, Hd. }
      split.
      { intros x d Hg. apply G1 in Hg as [Hg|[Hg Hn]]; [|right; split; [right; exact Hg|exact Hn]]. rewrite B1 in Hg. destruct n; auto.
        rewrite get_put in Hg. destruct (str_eqb x name) eqn:Ex; [|auto]. apply str_eqb_eq in Ex as ->. injection Hg as <-. right. cbn. auto. }
      split.
      { intros x Hx. apply G2. rewrite B1. destruct Hx as [Hx|(w1 & b & w2 & [->|Hx])].
        - left. destruct n; auto. rewrite get_put. destruct (str_eqb x name); [discriminate|exact Hx].
        - left. rewrite get_put_same. discriminate.
        - right. eauto. }
      split.
      { intros p Hp. apply X1 in Hp as [Hp|(T & q & Hq & F)]; [|right; split; [exact T|exists q; split; [right|]; assumption]].
        destruct n; try (left; congruence). destruct E1 as (T & En & q & F & Eq). right. split; [exact T|]. exists path0. split; [left; reflexivity|congruence]. }
      split.
      { intros q [->|Hq]; [|auto]. destruct E1 as (T & En & p & F & Ep). split; [exact T|]. exists p. split; [exact F|]. rewrite X3; congruence. }
      { intros He. destruct n; try (rewrite X3; congruence). destruct E1 as (T & En & _). congruence. }
  Qed.
  Lemma context_loop_fuel fuel : forall top stack c, (weight stack <= fuel)%nat -> context_loop find fuel path top stack c <> GFuel.
  Proof.
    induction fuel as [|f IH]; intros top [|ns stack] c Hw; cbn [context_loop]; try discriminate; cbn [weight fold_right] in Hw; fold (weight stack) in Hw; [lia|].
    destruct (context_nodes find path top ns c stack) as [[c' s']| |] eqn:E; cbn [of_res gbind]; try discriminate.
    apply context_nodes_spec in E as (W & _). apply IH. lia.
  Qed.
  Theorem context_new_ends nodes : context_new find path nodes <> GFuel.
  Proof. apply context_loop_fuel. cbn [weight fold_right]. lia. Qed.
  Lemma context_loop_spec fuel : forall top stack c c', context_loop find fuel path top stack c = GOk c' ->
    c_nodes c' = c_nodes c /\ (NoDup (map fst (c_blocks c)) -> NoDup (map fst (c_blocks c'))) /\
    (NoDup (map fst (c_macros c)) -> NoDup (map fst (c_macros c'))) /\
    (forall x d, get x (c_blocks c') = Some d -> get x (c_blocks c) = Some d \/ exists l, In l stack /\ has_block l x d) /\
    (forall x, get x (c_blocks c) <> None -> get x (c_blocks c') <> None) /\
    (forall l x w1 b w2, In l stack -> within (NBlockDef w1 x b w2) l -> get x (c_blocks c') <> None) /\
    (c_extends c' = match c_extends c, stack with
                    | None, l :: _ => if top then c_extends c' else None
                    | e, _ => e
                    end) /\
    (forall l q, In l stack -> within (NExtends q) l -> top = true /\ In (NExtends q) (hd [] stack) /\ exists p, find q path = Ok p /\ c_extends c' = Some p) /\
    (forall p, c_extends c' = Some p -> c_extends c = Some p \/ exists q, In (NExtends q) (hd [] stack) /\ find q path = Ok p).
  Proof.
    induction fuel as [|f IH]; intros top [|ns stack] c c'; cbn [context_loop]; try discriminate.
    1,2: intros [= <-]; split; [reflexivity|]; split; [auto|]; split; [auto|]; split; [auto|]; split; [auto|]; split; [intros ? ? ? ? ? []|];
      split; [destruct (c_extends c); reflexivity|]; split; [intros ? ? []|auto].
    intros H. apply gbind_inv in H as ([c1 s1] & H1 & H2). apply of_res_inv in H1.
    apply context_nodes_spec in H1 as (W & S & N1 & ND & NK & G1 & G2 & X1 & X2 & X3).
    apply IH in H2 as (N2 & ND2 & NK2 & F1 & F2 & F3 & Y1 & Y2 & Y3).
    split; [congruence|]. split; [auto|]. split; [auto|]. split.
    { intros x d Hg. apply F1 in Hg as [Hg|(l & Hl & Hb)].
      - apply G1 in Hg as [Hg|[Hi Hn]]; [left; exact Hg|]. right. exists ns. split; [left; reflexivity|]. split; [constructor; exact Hi|exact Hn].
      - right. apply S in Hl as [(m & Hm & Hb')|Hl]; [|exists l; split; [right; exact Hl|exact Hb]].
        exists ns. split; [left; reflexivity|]. destruct Hb as [Hw Hn]. split; [eapply within_deeper; eauto|exact Hn]. }
    split; [intros x Hx; apply F2, G2; left; exact Hx|]. split.
    { intros l x w1 b w2 [<-|Hl] Hw.
      - inversion Hw as [l0 Hi|l0 m b0 Hm Hb Hw']; subst.
        + apply F2, G2. right. eauto.
        + eapply F3; [apply S; left; eauto|exact Hw'].
      - eapply F3; [apply S; right; exact Hl|exact Hw]. }
    assert (E1 : c_extends c' = c_extends c1).
    { rewrite Y1. destruct (c_extends c1); [reflexivity|]. destruct s1; [reflexivity|]. reflexivity. }
    split.
    { destruct (c_extends c) as [p|] eqn:Ec; [rewrite E1, X3; congruence|]. destruct top; [reflexivity|].
      destruct (c_extends c') as [p|] eqn:Ec'; [|reflexivity]. rewrite E1 in Ec'. destruct (X1 p) as [?|[? _]]; congruence. }
    split.
    { intros l q [<-|Hl] Hw.
      - inversion Hw as [l0 Hi|l0 m b0 Hm Hb Hw']; subst.
        + apply X2 in Hi as Hi'. destruct Hi' as (T & p & F & E). repeat split; [exact T|exact Hi|]. exists p. rewrite E1. auto.
        + destruct (Y2 b0 q) as [? _]; [apply S; left; eauto|exact Hw'|discriminate].
      - destruct (Y2 l q) as [? _]; [apply S; right; exact Hl|exact Hw|discriminate]. }
    { intros p Hp. rewrite E1 in Hp. apply X1 in Hp as [Hp|(T & q & Hq & F)]; [left; exact Hp|right; exists q; split; [exact Hq|exact F]]. }
  Qed.
  Theorem context_new_spec nodes c : context_new find path nodes = GOk c ->
    c_nodes c = nodes /\ NoDup (map fst (c_blocks c)) /\ NoDup (map fst (c_macros c)) /\
    (forall x d, get x (c_blocks c) = Some d -> has_block nodes x d) /\
    (forall x d, has_block nodes x d -> get x (c_blocks c) <> None) /\
    (forall p, c_extends c = Some p -> exists q, In (NExtends q) nodes /\ find q path = Ok p) /\
    (forall q, within (NExtends q) nodes -> In (NExtends q) nodes /\ exists p, find q path = Ok p /\ c_extends c = Some p).
  Proof.
    intros H. unfold context_new in H. apply context_loop_spec in H as (N & ND & NK & F1 & F2 & F3 & Y1 & Y2 & Y3). cbn in *.
    split; [exact N|]. split; [apply ND; constructor|]. split; [apply NK; constructor|]. split.
    { intros x d Hg. apply F1 in Hg as [Hg|(l & [<-|[]] & Hb)]; [discriminate|exact Hb]. }
    split; [intros x d [Hw _]; eapply F3; [left; reflexivity|exact Hw]|]. split.
    { intros p Hp. apply Y3 in Hp as [Hp|Hp]; [discriminate|exact Hp]. }
    intros q Hq. destruct (Y2 nodes q) as (_ & Hi & Hp); auto.
  Qed.
End Context.

(** ** What can be named in blocks and includes *)
Lemma get_put_new {A} k k' (v : A) l : get k (put_new k' v l) = match get k l with Some d => Some d | None => if str_eqb k k' then Some v else None end.
Proof.
  unfold put_new. destruct (get k' l) as [d|] eqn:E.
  - destruct (get k l) eqn:F; auto. destruct (str_eqb k k') eqn:K; auto. apply str_eqb_eq in K as ->. congruence.
  - rewrite get_put. destruct (str_eqb k k') eqn:K; [apply str_eqb_eq in K as ->; now rewrite E|]. now destruct (get k l).
Qed.
Lemma get_merged {A} (o : list (str * A)) : forall l k,
  get k (fold_left (fun l x => put_new (fst x) (snd x) l) o l) = match get k l with Some d => Some d | None => get k o end.
Proof.
  induction o as [|[k' v] o IH]; intros l k; cbn [fold_left get fst snd]; [now destruct (get k l)|].
  rewrite IH, get_put_new. destruct (get k l); auto. now destruct (str_eqb k k').
Qed.
Lemma merge_sees o c : sees o c (merge_context o c).
Proof. repeat split; cbn [merge_context c_macros c_imports]; apply get_merged. Qed.
