(** * Proofs about [find_used_templates] (Heritage.v). *)
From Coq Require Import Lia ZArith ZifyBool ZifyNat ZifyN.
From Verif Require Import Base Ws Ast Heritage HeritageSpec HeritageFacts.
Local Open Scope N_scope.

Section Used.
  Variable find : str -> str -> res str.
  Variable load : str -> res str.
  Variable parse : str -> res (list node).

  (** The node lists the search goes into *)
  Definition inside (top : bool) (n : node) : list (list node) :=
    match n with
    | NMacro _ _ _ ns _ => if top then [ns] else []
    | NFilterBlock _ _ _ ns _ => [ns]
    | n => bodies n
    end.
  Definition names (top : bool) (n : node) : option str :=
    match n with
    | NExtends p | NImport _ p _ => if top then Some p else None
    | NInclude _ p => Some p
    | _ => None
    end.
  Lemma inside_weight top n : (weight (inside top n) < node_size n)%nat.
  Proof.
    destruct n; try (exact (bodies_weight _)).
    - destruct top; cbn [inside weight fold_right node_size]; pose proof (sum_eq nodes); lia.
    - cbn [inside weight fold_right node_size]. pose proof (sum_eq nodes). lia.
  Qed.
  Lemma mentions_names top l p : mentions top l p -> exists n, In n l /\ (names top n = Some p \/ exists b, In b (inside top n) /\ mentions false b p).
  Proof.
    intros H. inversion H; subst; eexists; (split; [eassumption|]).
    1,2,3: left; reflexivity.
    1,2: right; eexists; (split; [left; reflexivity|assumption]).
    right. exists b. split; [|assumption]. destruct m; try assumption; cbn [bodies] in *; contradiction.
  Qed.
  Lemma names_mentions top l p n : In n l -> names top n = Some p -> mentions top l p.
  Proof.
    intros Hi Hn. destruct n; cbn [names] in Hn; try discriminate; try (destruct top; [|discriminate]); injection Hn as ->;
      [eapply m_extends|eapply m_include|eapply m_import]; eassumption.
  Qed.
  Lemma inside_mentions top l p n b : In n l -> In b (inside top n) -> mentions false b p -> mentions top l p.
  Proof.
    intros Hi Hb Hm. destruct n; try (eapply m_body; eassumption).
    - cbn [inside] in Hb. destruct top; [|destruct Hb]. destruct Hb as [<-|[]]. eapply m_macro; eassumption.
    - cbn [inside] in Hb. destruct Hb as [<-|[]]. eapply m_filter; eassumption.
  Qed.

  (** What a step adds: files found under one of the names in [P] *)
  Definition adds (path : str) (P : str -> Prop) (st st' : fstate) : Prop :=
    (forall p v, get p (u_map st) = Some v -> get p (u_map st') = Some v) /\
    (forall p v, get p (u_map st') = Some v -> get p (u_map st) = Some v \/ (v = [] /\ In p (map fst (u_check st')) /\ exists x, P x /\ find x path = Ok p)) /\
    (forall e, In e (u_check st) -> In e (u_check st')) /\
    (forall p s, In (p, s) (u_check st') -> In (p, s) (u_check st) \/ (load p = Ok s /\ exists x, P x /\ find x path = Ok p)).
  Lemma adds_refl path P st : adds path P st st.
  Proof. repeat split; auto. Qed.
  Lemma adds_trans path P Q st1 st2 st3 : adds path P st1 st2 -> adds path Q st2 st3 -> adds path (fun x => P x \/ Q x) st1 st3.
  Proof.
    intros (A1 & A2 & A3 & A4) (B1 & B2 & B3 & B4). split; [auto|]. split.
    - intros p v Hp. apply B2 in Hp as [Hp|(-> & Hi & x & Hx & F)]; [|right; split; [reflexivity|]; split; [exact Hi|]; exists x; auto].
      apply A2 in Hp as [Hp|(-> & Hi & x & Hx & F)]; [left; exact Hp|]. right. split; [reflexivity|]. split; [|exists x; auto].
      apply in_map_iff in Hi as (e & <- & Hi). apply in_map. auto.
    - split; [auto|]. intros p s Hp. apply B4 in Hp as [Hp|(L & x & Hx & F)]; [|right; split; [exact L|]; exists x; auto].
      apply A4 in Hp as [Hp|(L & x & Hx & F)]; [left; exact Hp|right; split; [exact L|]; exists x; auto].
  Qed.
  Lemma adds_impl path (P Q : str -> Prop) st st' : (forall x, P x -> Q x) -> adds path P st st' -> adds path Q st st'.
  Proof.
    intros I (A1 & A2 & A3 & A4). split; [auto|]. split; [|split; [auto|]].
    - intros p v Hp. apply A2 in Hp as [Hp|(-> & Hi & x & Hx & F)]; [auto|]. right. split; [reflexivity|]. split; [exact Hi|]. exists x. auto.
    - intros p s Hp. apply A4 in Hp as [Hp|(L & x & Hx & F)]; [auto|]. right. split; [exact L|]. exists x. auto.
  Qed.
  Lemma add_to_check_spec path x q st st' : find x path = Ok q -> add_to_check load q st = Ok st' ->
    adds path (fun y => y = x) st st' /\ get q (u_map st') <> None.
  Proof.
    intros F. unfold add_to_check. destruct (get q (u_map st)) as [v|] eqn:G.
    - intros [= <-]. split; [apply adds_refl|congruence].
    - intros H. apply rbind_inv in H as (s & L & [= <-]). cbn [u_map u_check]. split; [|rewrite get_put_same; discriminate].
      split; [|split; [|split]]; cbn [u_map u_check].
      + intros p v Hp. rewrite get_put_other; [exact Hp|]. intros ->. congruence.
      + intros p v. rewrite get_put. destruct (str_eqb p q) eqn:E; [|auto]. apply str_eqb_eq in E as ->. intros [= <-].
        right. split; [reflexivity|]. split; [left; reflexivity|]. exists x. auto.
      + intros e He. right. exact He.
      + intros p s' [[= <- <-]|Hp]; [|auto]. right. split; [exact L|]. exists x. auto.
  Qed.
  Lemma used_node_spec path top n st st' more : used_node find load path top n st = Ok (st', more) ->
    more = inside top n /\ adds path (fun x => names top n = Some x) st st' /\
    (forall x, names top n = Some x -> exists q, find x path = Ok q /\ get q (u_map st') <> None).
  Proof.
    assert (Skip : forall more', used_node find load path top n st = Ok (st, more') -> more' = inside top n -> names top n = None ->
      used_node find load path top n st = Ok (st', more) -> more = inside top n /\ adds path (fun x => names top n = Some x) st st' /\
       (forall x, names top n = Some x -> exists q, find x path = Ok q /\ get q (u_map st') <> None)).
    { intros more' E -> Hn. rewrite E. intros [= <- <-]. split; [reflexivity|]. split; [apply adds_refl|]. rewrite Hn. discriminate. }
    destruct n; try (eapply Skip; reflexivity); cbn [used_node names inside bodies].
    - destruct top; [|intros [= <- <-]; split; [reflexivity|split; [apply adds_refl|discriminate]]].
      intros H. apply rbind_inv in H as (q & F & H). destruct (str_eqb path q); [discriminate|].
      destruct (existsb _ _); [discriminate|]. apply rbind_inv in H as (st2 & H & [= <- <-]).
      apply (add_to_check_spec path path0) in H as [H G]; [|exact F]. split; [reflexivity|]. split.
      + eapply adds_impl; [|exact H]. cbn. congruence.
      + intros x [= <-]. eauto.
    - intros H. apply rbind_inv in H as (q & F & H). apply rbind_inv in H as (st2 & H & [= <- <-]).
      apply (add_to_check_spec path path0) in H as [H G]; [|exact F]. split; [reflexivity|]. split.
      + eapply adds_impl; [|exact H]. cbn. congruence.
      + intros x [= <-]. eauto.
    - destruct top; [|intros [= <- <-]; split; [reflexivity|split; [apply adds_refl|discriminate]]].
      intros H. apply rbind_inv in H as (q & F & H). apply rbind_inv in H as (st2 & H & [= <- <-]).
      apply (add_to_check_spec path path0) in H as [H G]; [|exact F]. split; [reflexivity|]. split.
      + eapply adds_impl; [|exact H]. cbn. congruence.
      + intros x [= <-]. eauto.
  Qed.
  Lemma adds_get path P st st' q : adds path P st st' -> get q (u_map st) <> None -> get q (u_map st') <> None.
  Proof. intros (A & _) H. destruct (get q (u_map st)) eqn:E; [|congruence]. erewrite A by exact E. discriminate. Qed.
  Lemma used_nodes_spec path top ns : forall st stack st' stack', used_nodes find load path top ns st stack = Ok (st', stack') ->
    (weight stack' <= nodes_size ns + weight stack)%nat /\ (forall b, In b stack' <-> (exists m, In m ns /\ In b (inside top m)) \/ In b stack) /\
    adds path (fun x => exists n, In n ns /\ names top n = Some x) st st' /\
    (forall x n, In n ns -> names top n = Some x -> exists q, find x path = Ok q /\ get q (u_map st') <> None).
  Proof.
    induction ns as [|n ns IH]; intros st stack st' stack'; cbn [used_nodes nodes_size].
    - intros [= <- <-]. split; [lia|]. split; [intros b; split; [auto|intros [(m & [] & _)|H]; exact H]|].
      split; [apply adds_refl|intros x n []].
    - intros H. apply rbind_inv in H as ([st1 more] & H1 & H2). apply used_node_spec in H1 as (-> & A1 & Q1).
      apply IH in H2 as (W & S & A2 & Q2). rewrite weight_app, weight_rev in W. pose proof (inside_weight top n).
      split; [lia|]. split.
      { intros b. rewrite S, in_app_iff, <- in_rev. split.
        - intros [(m & Hm & Hb)|[Hb|Hb]]; [left; exists m; split; [right|]; assumption|left; exists n; split; [left; reflexivity|assumption]|right; assumption].
        - intros [(m & [<-|Hm] & Hb)|Hb]; [right; left; assumption|left; eauto|right; right; assumption]. }
      split.
      { eapply adds_impl; [|eapply adds_trans; [exact A1|exact A2]]. cbn. intros x [Hx|(m & Hm & Hx)]; [exists n|exists m]; auto. }
      intros x m [<-|Hm] Hx; [|eauto]. apply Q1 in Hx as (q & F & G). exists q. split; [exact F|]. eapply adds_get; eauto.
  Qed.
  Definition stack_mentions (top : bool) (stack : list (list node)) (x : str) : Prop :=
    match stack with [] => False | l :: s => mentions top l x \/ exists b, In b s /\ mentions false b x end.
  Lemma stack_mentions_false stack x : stack_mentions false stack x <-> exists b, In b stack /\ mentions false b x.
  Proof.
    destruct stack as [|l s]; cbn; split.
    - intros [].
    - intros (b & [] & _).
    - intros [H|(b & Hb & H)]; [exists l|exists b]; auto.
    - intros (b & [<-|Hb] & H); [left; exact H|right; eauto].
  Qed.
  Lemma used_file_spec path fuel : forall top stack st st', used_file find load fuel path top stack st = GOk st' ->
    adds path (stack_mentions top stack) st st' /\
    (forall x, stack_mentions top stack x -> exists q, find x path = Ok q /\ get q (u_map st') <> None).
  Proof.
    induction fuel as [|f IH]; intros top [|ns stack] st st'; cbn [used_file]; try discriminate.
    1,2: intros [= <-]; split; [apply adds_refl|intros x []].
    intros H. apply gbind_inv in H as ([st1 s1] & H1 & H2). apply of_res_inv in H1.
    apply used_nodes_spec in H1 as (W & S & A1 & Q1). apply IH in H2 as (A2 & Q2). split.
    - eapply adds_impl; [|eapply adds_trans; [exact A1|exact A2]]. cbn. intros x [(n & Hn & Hx)|Hx].
      + left. eapply names_mentions; eauto.
      + apply stack_mentions_false in Hx as (b & Hb & Hx). apply S in Hb as [(m & Hm & Hb)|Hb]; [|right; eauto].
        left. eapply inside_mentions; eauto.
    - cbn. intros x [Hx|(b & Hb & Hx)].
      + apply mentions_names in Hx as (n & Hn & [Hx|(b & Hb & Hx)]).
        * apply Q1 in Hx as (q & F & G); [|exact Hn]. exists q. split; [exact F|]. eapply adds_get; eauto.
        * apply Q2, stack_mentions_false. exists b. split; [apply S; left; eauto|exact Hx].
      + apply Q2, stack_mentions_false. exists b. split; [apply S; right; exact Hb|exact Hx].
  Qed.
  Lemma used_file_fuel path fuel : forall top stack st, (weight stack <= fuel)%nat -> used_file find load fuel path top stack st <> GFuel.
  Proof.
    induction fuel as [|f IH]; intros top [|ns stack] c Hw; cbn [used_file]; try discriminate; cbn [weight fold_right] in Hw; fold (weight stack) in Hw; [lia|].
    destruct (used_nodes find load path top ns c stack) as [[c' s']| |] eqn:E; cbn [of_res gbind]; try discriminate.
    apply used_nodes_spec in E as (W & _). apply IH. lia.
  Qed.

  (** ** The loop over the files *)
  Variable root src : str.
  Notation contents := (contents load parse root src).
  Notation reachable := (reachable find load parse root src).
  (** Files that are done have their contents in the map, and what they mention is known. *)
  Definition done (st : fstate) (p : str) : Prop :=
    exists ns, get p (u_map st) = Some ns /\ contents p ns /\ forall x, mentions true ns x -> exists q, find x p = Ok q /\ get q (u_map st) <> None.
  Record inv (st : fstate) : Prop := {
    i_root : done st root \/ In root (map fst (u_check st));
    i_keys : forall p, get p (u_map st) <> None -> reachable p /\ (done st p \/ In p (map fst (u_check st)));
    i_check : forall p s, In (p, s) (u_check st) -> reachable p /\ (load p = Ok s \/ (p = root /\ s = src));
    i_nodup : NoDup (map fst (u_map st)) }.
  Lemma done_mono path P st st' p : adds path P st st' -> done st p -> done st' p.
  Proof.
    intros A (ns & G & C & M). exists ns. split; [apply A, G|]. split; [exact C|]. intros x Hx. apply M in Hx as (q & F & Gq).
    exists q. split; [exact F|]. eapply adds_get; eauto.
  Qed.
  Lemma add_to_check_NoDup q st st' : add_to_check load q st = Ok st' -> NoDup (map fst (u_map st)) -> NoDup (map fst (u_map st')).
  Proof.
    unfold add_to_check. destruct (get q (u_map st)); [intros [= <-]; auto|]. intros H. apply rbind_inv in H as (s & L & [= <-]). apply put_NoDup.
  Qed.
  Lemma used_node_NoDup path top n st st' more : used_node find load path top n st = Ok (st', more) -> NoDup (map fst (u_map st)) -> NoDup (map fst (u_map st')).
  Proof.
    destruct n; cbn [used_node]; try (intros [= <- <-]; auto; fail).
    - destruct top; [|intros [= <- <-]; auto]. intros H. apply rbind_inv in H as (q & F & H). destruct (str_eqb path q); [discriminate|].
      destruct (existsb _ _); [discriminate|]. apply rbind_inv in H as (st2 & H & [= <- <-]). intros ND. eapply add_to_check_NoDup; [exact H|exact ND].
    - intros H. apply rbind_inv in H as (q & F & H). apply rbind_inv in H as (st2 & H & [= <- <-]). eapply add_to_check_NoDup; exact H.
    - destruct top; [|intros [= <- <-]; auto]. intros H. apply rbind_inv in H as (q & F & H).
      apply rbind_inv in H as (st2 & H & [= <- <-]). eapply add_to_check_NoDup; exact H.
  Qed.
  Lemma used_nodes_NoDup path top ns : forall st stack st' stack', used_nodes find load path top ns st stack = Ok (st', stack') ->
    NoDup (map fst (u_map st)) -> NoDup (map fst (u_map st')).
  Proof.
    induction ns as [|n ns IH]; intros st stack st' stack'; cbn [used_nodes]; [intros [= <- <-]; auto|].
    intros H. apply rbind_inv in H as ([st1 more] & H1 & H2). intros ND. eapply IH; [exact H2|]. eapply used_node_NoDup; eauto.
  Qed.
  Lemma used_file_NoDup path fuel : forall top stack st st', used_file find load fuel path top stack st = GOk st' ->
    NoDup (map fst (u_map st)) -> NoDup (map fst (u_map st')).
  Proof.
    induction fuel as [|f IH]; intros top [|ns stack] st st'; cbn [used_file]; try discriminate.
    1,2: intros [= <-]; auto.
    intros H. apply gbind_inv in H as ([st1 s1] & H1 & H2). apply of_res_inv in H1. intros ND. eapply IH; [exact H2|]. eapply used_nodes_NoDup; eauto.
  Qed.
  Lemma used_step st path s check nodes st' : inv st -> u_check st = (path, s) :: check -> parse s = Ok nodes ->
    used_file find load (S (nodes_size nodes)) path true [nodes] {| u_map := u_map st; u_check := check; u_graph := u_graph st |} = GOk st' ->
    inv {| u_map := put path nodes (u_map st'); u_check := u_check st'; u_graph := u_graph st' |}.
  Proof.
    intros [R K C ND] Ec Ep H. pose proof (used_file_NoDup _ _ _ _ _ _ H ND) as ND'. apply used_file_spec in H as (A & Q).
    assert (HP : forall x, stack_mentions true [nodes] x <-> mentions true nodes x).
    { intros x. cbn. split; [intros [Hx|(b & [] & _)]; exact Hx|auto]. }
    destruct (C path s) as [Rp Hp]; [rewrite Ec; left; reflexivity|].
    set (st2 := {| u_map := put path nodes (u_map st'); u_check := u_check st'; u_graph := u_graph st' |}).
    assert (Cn : contents path nodes) by (exists s; auto).
    assert (G2 : forall q, get q (u_map st') <> None -> get q (u_map st2) <> None).
    { intros q Hq. cbn. rewrite get_put. destruct (str_eqb q path); [discriminate|exact Hq]. }
    assert (Dp : done st2 path).
    { exists nodes. split; [cbn; apply get_put_same|]. split; [exact Cn|]. intros x Hx. destruct (Q x) as (q & F & G); [apply HP, Hx|]. eauto. }
    assert (D : forall p, done st p -> done st2 p).
    { intros p (ns & G & Cp & M). destruct (str_eqb p path) eqn:E; [apply str_eqb_eq in E as ->; exact Dp|].
      exists ns. split; [cbn; rewrite get_put, E; apply A; exact G|]. split; [exact Cp|]. intros x Hx. apply M in Hx as (q & F & Gq).
      exists q. split; [exact F|]. apply G2. eapply adds_get; [exact A|exact Gq]. }
    assert (K2 : forall p, done st p \/ In p (map fst (u_check st)) -> done st2 p \/ In p (map fst (u_check st2))).
    { intros p [Hd|Hi]; [left; apply D, Hd|]. rewrite Ec in Hi. destruct Hi as [<-|Hi]; [left; exact Dp|]. right. cbn.
      apply in_map_iff in Hi as (e & <- & Hi). apply in_map. apply A. exact Hi. }
    constructor.
    - apply K2, R.
    - intros p. cbn [u_map st2]. rewrite get_put. destruct (str_eqb p path) eqn:E; [apply str_eqb_eq in E as ->; intros _; split; [exact Rp|left; exact Dp]|].
      intros Hg. destruct (get p (u_map st')) as [v|] eqn:G; [|congruence]. apply A in G as [G|(-> & Hi & x & Hx & F)].
      + cbn [u_map] in G. destruct (K p) as [Kr Kd]; [congruence|]. split; [exact Kr|apply K2, Kd].
      + split; [|right; exact Hi]. eapply reach_next; [exact Rp|exact Cn|apply HP, Hx|exact F].
    - intros p s' Hi. cbn in Hi. apply A in Hi as [Hi|(L & x & Hx & F)].
      + apply C. rewrite Ec. right. exact Hi.
      + split; [|left; exact L]. eapply reach_next; [exact Rp|exact Cn|apply HP, Hx|exact F].
    - cbn. apply put_NoDup, ND'.
  Qed.
  Lemma used_loop_spec fuel : forall st m, inv st -> used_loop find load parse fuel st = GOk m ->
    exists st', inv st' /\ u_check st' = [] /\ u_map st' = m.
  Proof.
    induction fuel as [|f IH]; intros st m I; cbn [used_loop]; destruct (u_check st) as [|[path s] check] eqn:Ec; try discriminate.
    1,2: intros [= <-]; exists st; auto.
    intros H. apply gbind_inv in H as (nodes & Hp & H). apply of_res_inv in Hp. apply gbind_inv in H as (st' & Hu & H).
    eapply IH; [|exact H]. eapply used_step; eauto.
  Qed.
  (** The file with the template's own path, if there is one, is the template. *)
  Hypothesis load_root : forall s, load root = Ok s -> s = src.
  Lemma contents_det p ns ns' : contents p ns -> contents p ns' -> ns = ns'.
  Proof.
    intros (s & [L|[-> ->]] & P) (s' & [L'|[E ->]] & P').
    - congruence.
    - subst p. apply load_root in L as ->. congruence.
    - apply load_root in L' as ->. congruence.
    - congruence.
  Qed.
  Lemma inv_init : inv {| u_map := []; u_check := [(root, src)]; u_graph := [] |}.
  Proof.
    constructor; cbn.
    - right. left. reflexivity.
    - intros p H. congruence.
    - intros p s [[= <- <-]|[]]. split; [constructor|right; auto].
    - constructor.
  Qed.
  Theorem find_used_spec fuel m : find_used_templates find load parse fuel root src = GOk m ->
    NoDup (map fst m) /\ (forall p ns, get p m = Some ns -> contents p ns) /\
    (forall p, get p m <> None <-> reachable p).
  Proof.
    intros H. unfold find_used_templates in H. apply used_loop_spec in H as (st & [R K C ND] & Ec & <-); [|exact inv_init].
    rewrite Ec in *. assert (D : forall p, get p (u_map st) <> None -> done st p) by (intros p Hp; destruct (K p Hp) as [_ [Hd|[]]]; exact Hd).
    split; [exact ND|]. split.
    - intros p ns G. destruct (D p) as (ns' & G' & Cp & _); [congruence|]. congruence.
    - intros p. split; [intros Hp; apply K, Hp|]. intros Hr. induction Hr as [|p ns x q Hr IH Cp Hm F].
      + destruct R as [(ns & G & _)|[]]. congruence.
      + destruct (D p IH) as (ns' & G & Cp' & M). rewrite <- (contents_det _ _ _ Cp Cp') in M. destruct (M x Hm) as (q' & F' & G'). congruence.
  Qed.

End Used.

Section Ends.
  Variable find : str -> str -> res str.
  Variable load : str -> res str.
  Variable parse : str -> res (list node).
  (** ** The search ends *)
  Variable files : list str.
  Hypothesis finite : forall x p q, find x p = Ok q -> In q files.
  Definition missing (m : list (str * list node)) : nat :=
    length (List.filter (fun f => match get f m with None => true | Some _ => false end) files).
  Definition measure (st : fstate) : nat := (length (u_check st) + missing (u_map st))%nat.
  Lemma missing_put p v m : (missing (put p v m) <= missing m)%nat /\ (In p files -> get p m = None -> (missing (put p v m) < missing m)%nat).
  Proof.
    unfold missing. clear finite. induction files as [|f l IH]; cbn [List.filter length]; [split; [lia|intros []]|]. destruct IH as [IH1 IH2].
    rewrite (get_put f p). destruct (str_eqb f p) eqn:E.
    - apply str_eqb_eq in E as ->. destruct (get p m) eqn:G; cbn [length]; split; try lia; congruence.
    - destruct (get f m) eqn:G; cbn [length]; (split; [lia|]); intros [->|Hi] Gp; try (rewrite str_eqb_refl in E; discriminate); specialize (IH2 Hi Gp); lia.
  Qed.
  Lemma add_measure q st st' : In q files -> add_to_check load q st = Ok st' -> (measure st' <= measure st)%nat.
  Proof.
    intros Hq. unfold add_to_check. destruct (get q (u_map st)) eqn:G; [intros [= <-]; lia|]. intros H. apply rbind_inv in H as (s & L & [= <-]).
    unfold measure. cbn [u_check u_map length]. destruct (missing_put q [] (u_map st)) as [_ H]. specialize (H Hq G). lia.
  Qed.
  Lemma used_node_measure path top n st st' more : used_node find load path top n st = Ok (st', more) -> (measure st' <= measure st)%nat.
  Proof.
    destruct n; cbn [used_node]; try (intros [= <- <-]; lia).
    - destruct top; [|intros [= <- <-]; lia]. intros H. apply rbind_inv in H as (q & F & H). destruct (str_eqb path q); [discriminate|].
      destruct (existsb _ _); [discriminate|]. apply rbind_inv in H as (st2 & H & [= <- <-]). apply add_measure in H; [exact H|eapply finite; eauto].
    - intros H. apply rbind_inv in H as (q & F & H). apply rbind_inv in H as (st2 & H & [= <- <-]). eapply add_measure; [eapply finite; eauto|exact H].
    - destruct top; [|intros [= <- <-]; lia]. intros H. apply rbind_inv in H as (q & F & H).
      apply rbind_inv in H as (st2 & H & [= <- <-]). eapply add_measure; [eapply finite; eauto|exact H].
  Qed.
  Lemma used_nodes_measure path top ns : forall st stack st' stack', used_nodes find load path top ns st stack = Ok (st', stack') ->
    (measure st' <= measure st)%nat.
  Proof.
    induction ns as [|n ns IH]; intros st stack st' stack'; cbn [used_nodes]; [intros [= <- <-]; lia|].
    intros H. apply rbind_inv in H as ([st1 more] & H1 & H2). apply used_node_measure in H1. apply IH in H2. lia.
  Qed.
  Lemma used_file_measure path fuel : forall top stack st st', used_file find load fuel path top stack st = GOk st' -> (measure st' <= measure st)%nat.
  Proof.
    induction fuel as [|f IH]; intros top [|ns stack] st st'; cbn [used_file]; try discriminate.
    1,2: intros [= <-]; lia.
    intros H. apply gbind_inv in H as ([st1 s1] & H1 & H2). apply of_res_inv in H1. apply used_nodes_measure in H1. apply IH in H2. lia.
  Qed.
  Lemma used_loop_ends fuel : forall st, (measure st <= fuel)%nat -> used_loop find load parse fuel st <> GFuel.
  Proof.
    induction fuel as [|f IH]; intros st Hf; cbn [used_loop]; destruct (u_check st) as [|[path s] check] eqn:Ec; try discriminate.
    - unfold measure in Hf. rewrite Ec in Hf. cbn in Hf. lia.
    - destruct (parse s) as [nodes| |]; cbn [of_res gbind]; try discriminate.
      destruct (used_file _ _ _ _ _ _ _) as [st'| | |] eqn:E; cbn [gbind]; try discriminate.
      + apply used_file_measure in E. apply IH. unfold measure in *. cbn [u_check u_map] in *. rewrite Ec in Hf. cbn [length] in Hf.
        destruct (missing_put path nodes (u_map st')) as [H _]. lia.
      + exfalso. revert E. apply used_file_fuel; [exact parse|]. cbn [weight fold_right]. lia.
  Qed.
  Theorem find_used_ends root src fuel : (length files < fuel)%nat -> find_used_templates find load parse fuel root src <> GFuel.
  Proof.
    intros Hf. apply used_loop_ends. unfold measure, missing. cbn [u_check u_map length get].
    assert (forall l : list str, (length (List.filter (fun _ => true) l) <= length l)%nat) as H by (intros l; induction l; cbn; lia).
    specialize (H files). lia.
  Qed.
End Ends.
