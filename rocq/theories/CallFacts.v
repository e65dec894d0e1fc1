(** * Which calls of a macro are accepted, and which argument goes with which parameter. *)
From Coq Require Import ZArith Lia ZifyBool ZifyNat.
From Verif Require Import Base Ws Ast Ident GenExpr Heritage Gen RefSem HeritageFacts ConfigFacts GenSteps.
Local Open Scope nat_scope.

(** The shape the parser guarantees (C23): positional arguments first, then named ones with distinct names. *)
Definition call_args (pos : list expr) (named : list (str * expr)) : list expr := pos ++ map (fun y => NamedArgument (fst y) (snd y)) named.
Definition unnamed (l : list expr) : Prop := Forall (fun e => is_named e = false) l.

(** ** Keys of the table of named arguments *)
Lemma named_arguments_keys def : forall l acc named, named_arguments def l acc = Ok named ->
  forall p, get p named <> None -> get p acc <> None \/ exists v, In (NamedArgument p v) l.
Proof.
  induction l as [|y l IH]; intros acc named E p Hp; [injection E as <-; left; exact Hp|].
  destruct y; cbn [named_arguments] in E; try (injection E as <-; left; exact Hp).
  destruct (mem_str name def); [|discriminate E]. destruct (IH _ _ E p Hp) as [H|[v H]].
  - rewrite get_put in H. destruct (str_eqb p name) eqn:Ep.
    + apply str_eqb_eq in Ep. subst. right. eexists. left. reflexivity.
    + left. exact H.
  - right. exists v. right. exact H.
Qed.
Lemma rev_call_args pos named : rev (call_args pos named) = rev (map (fun y => NamedArgument (fst y) (snd y)) named) ++ rev pos.
Proof. unfold call_args. apply rev_app_distr. Qed.
Lemma named_arguments_known def : forall l r acc named, Forall (fun e => is_named e = true) l -> named_arguments def (l ++ r) acc = Ok named ->
  forall k v, In (NamedArgument k v) l -> In k def.
Proof.
  induction l as [|y l IH]; intros r acc named Hl E k v Hin; [destruct Hin|]. inversion Hl as [|? ? Hy Hl']; subst. clear Hl.
  destruct y; try discriminate Hy. cbn [app named_arguments] in E. destruct (mem_str name def) eqn:M; [|discriminate E].
  destruct Hin as [H|Hin]; [injection H as -> _; apply mem_str_In in M; exact M|]. eapply IH; eassumption.
Qed.

(** ** The loop over the parameters: first those without, then those with a named argument *)
Lemma bind_args_split inp named args : forall params i (positional : bool) m res, bind_args inp named args params i positional m = Ok res ->
  exists j, j <= length params /\ (positional = false -> j = 0) /\
    Forall (fun p => get p named = None) (firstn j params) /\ Forall (fun p => get p named <> None) (skipn j params).
Proof.
  induction params as [|p params IH]; intros i positional m res E.
  - exists 0. split; [apply Nat.le_refl|]. split; [reflexivity|]. split; constructor.
  - cbn [bind_args] in E. apply rbind_Ok in E as ([e pos] & Ee & E). cbv beta iota in E.
    assert (HR : exists m' res', bind_args inp named args params (S i) pos m' = Ok res').
    { assert (BV : (let! r := visit_expr_root inp m e in let! m' := ch_insert m p m_default in
                    let! (m'', names, values) := bind_args inp named args params (S i) pos m' in Ok (m'', p :: names, r :: values)) = Ok res ->
                   exists m' res', bind_args inp named args params (S i) pos m' = Ok res').
      { clear E. intros E. apply rbind_Ok in E as (r & _ & E). apply rbind_Ok in E as (m' & _ & E). apply rbind_Ok in E as (x & E & _). eauto. }
      destruct e; try (apply BV; exact E).
      - destruct (str_eqb s (lit "self")); [apply BV; exact E|]. apply rbind_Ok in E as (m' & _ & E). eauto.
      - apply rbind_Ok in E as ([r wr] & _ & E). cbv beta iota zeta in E. apply rbind_Ok in E as (m' & _ & E). eauto. }
    destruct HR as (m' & res' & HR). apply IH in HR as (j & Hj & H0 & H1 & H2).
    destruct (get p named) as [e'|] eqn:G.
    + injection Ee as <- <-. specialize (H0 eq_refl). subst j. exists 0. split; [lia|]. split; [reflexivity|]. split; [constructor|].
      cbn [skipn] in *. constructor; [congruence|exact H2].
    + destruct positional; [|discriminate Ee]. destruct (nth_error args i) as [e'|]; [|discriminate Ee]. injection Ee as <- <-.
      exists (S j). split; [cbn; lia|]. split; [discriminate|]. cbn [firstn skipn]. split; [constructor; assumption|exact H2].
Qed.

(** ** A call that fits *)
Definition fits (params : list str) (pos : list expr) (named : list (str * expr)) : Prop :=
  length pos + length named = length params /\                                       (* arity *)
  (forall k v, In (k, v) named -> In k params) /\                                    (* no unknown name *)
  (forall k v, In (k, v) named -> ~ In k (firstn (length pos) params)).              (* no parameter given twice *)
Lemma NoDup_skipn {A} n (l : list A) : NoDup l -> NoDup (skipn n l).
Proof. revert n. induction l as [|x l IH]; intros [|n] H; cbn; try exact H. inversion H; subst. apply IH. assumption. Qed.
Lemma in_named named k v : In (NamedArgument k v) (map (fun y => NamedArgument (fst y) (snd y)) named) <-> In (k, v) named.
Proof.
  rewrite in_map_iff. split.
  - intros ([k' v'] & E & H). cbn in E. injection E as -> ->. exact H.
  - intros H. exists (k, v). split; [reflexivity|exact H].
Qed.
Lemma only_fitting inp params pos named tbl m res :
  NoDup params -> unnamed pos -> length (call_args pos named) = length params ->
  named_arguments params (rev (call_args pos named)) [] = Ok tbl -> bind_args inp tbl (call_args pos named) params 0 true m = Ok res ->
  fits params pos named.
Proof.
  intros ND HP HL HN HB.
  assert (L : length pos + length named = length params) by (unfold call_args in HL; rewrite app_length, map_length in HL; exact HL).
  assert (K : forall k v, In (k, v) named -> In k params).
  { intros k v Hk. rewrite rev_call_args in HN. eapply named_arguments_known; [|exact HN|].
    - apply Forall_forall. intros e He. apply in_rev in He. apply in_map_iff in He as ([k' v'] & <- & _). reflexivity.
    - apply in_rev. rewrite rev_involutive. apply in_named. exact Hk. }
  assert (KT : forall p, get p tbl <> None -> In p (map fst named)).
  { intros p Hp. destruct (named_arguments_keys _ _ _ _ HN p Hp) as [H|[v H]]; [exfalso; apply H; reflexivity|].
    apply in_rev in H. unfold call_args in H. apply in_app_or in H as [H|H].
    - unfold unnamed in HP. rewrite Forall_forall in HP. apply HP in H. discriminate H.
    - apply in_named in H. apply in_map_iff. exists (p, v). split; [reflexivity|exact H]. }
  assert (TK : forall k v, In (k, v) named -> get k tbl <> None).
  { intros k v Hk. rewrite rev_call_args in HN. clear - HN Hk.
    assert (G : forall l r acc t, named_arguments params (l ++ r) acc = Ok t -> Forall (fun e => is_named e = true) l ->
                (get k acc <> None \/ exists v, In (NamedArgument k v) l) -> get k t <> None).
    { induction l as [|y l IH]; intros r acc t E F H.
      - destruct H as [H|[v' []]]. cbn [app] in E. clear - E H. revert acc t E H. induction r as [|y r IH]; intros acc t E H; [injection E as <-; exact H|].
        destruct y; cbn [named_arguments] in E; try (injection E as <-; exact H). destruct (mem_str name params); [|discriminate E]. eapply IH; [exact E|].
        rewrite get_put. destruct (str_eqb k name); [discriminate|exact H].
      - inversion F as [|? ? Fy F']; subst. destruct y; try discriminate Fy. cbn [app named_arguments] in E. destruct (mem_str name params); [|discriminate E].
        eapply IH; [exact E|exact F'|]. rewrite get_put. destruct (str_eqb k name) eqn:Ek; [left; discriminate|]. destruct H as [H|[v' [H|H]]].
        + left. exact H.
        + injection H as -> _. rewrite str_eqb_refl in Ek. discriminate Ek.
        + right. eauto. }
    eapply G; [exact HN| |].
    - apply Forall_forall. intros e He. apply in_rev in He. apply in_map_iff in He as ([k' v'] & <- & _). reflexivity.
    - right. exists v. apply in_rev. rewrite rev_involutive. apply in_named. exact Hk. }
  split; [exact L|]. split; [exact K|]. intros k v Hk Hin.
  destruct (bind_args_split _ _ _ _ _ _ _ _ HB) as (j & Hj & _ & F1 & F2).
  assert (Hlen : length (skipn j params) <= length (map fst named)).
  { apply NoDup_incl_length; [apply NoDup_skipn; exact ND|]. intros p Hp. apply KT. rewrite Forall_forall in F2. apply F2. exact Hp. }
  rewrite skipn_length, map_length in Hlen. assert (HJ : length pos <= j) by lia.
  assert (HI : In k (firstn j params)).
  { rewrite <- (firstn_skipn (length pos) (firstn j params)). apply in_or_app. left. rewrite firstn_firstn, Nat.min_l by exact HJ. exact Hin. }
  rewrite Forall_forall in F1. apply F1 in HI. exact (TK k v Hk HI).
Qed.

(** ** Which argument goes with which parameter *)
Lemma named_arg_call p pos named : unnamed pos -> named_arg p (call_args pos named) = option_map (NamedArgument p) (get p named).
Proof.
  intros HP. unfold call_args. induction pos as [|y pos IH]; cbn [app].
  - clear HP. induction named as [|[k v] named IH]; [reflexivity|]. cbn [map named_arg fst snd get].
    assert (F : forallb is_named (map (fun y : str * expr => NamedArgument (fst y) (snd y)) named) = true) by (apply forallb_forall; intros e He; apply in_map_iff in He as (z & <- & _); reflexivity).
    rewrite F, andb_true_r. destruct (str_eqb k p) eqn:E.
    + apply str_eqb_eq in E. subst. rewrite str_eqb_refl. reflexivity.
    + assert (str_eqb p k = false) as -> by (apply str_eqb_neq; apply str_eqb_neq in E; congruence). exact IH.
  - inversion HP as [|? ? Hy HP']; subst. destruct y; try discriminate Hy; exact (IH HP').
Qed.
Lemma pair_args_spec pos named : unnamed pos -> forall params i l, pair_args i params (call_args pos named) = Some l ->
  length l = length params /\
  forall j p e, nth_error l j = Some (p, e) ->
    nth_error params j = Some p /\
    match get p named with Some v => e = NamedArgument p v | None => nth_error (call_args pos named) (i + j) = Some e end.
Proof.
  intros HP. induction params as [|q params IH]; intros i l E; cbn [pair_args] in E.
  - injection E as <-. split; [reflexivity|]. intros j p e H. destruct j; discriminate H.
  - rewrite named_arg_call in E by exact HP.
    destruct (match option_map (NamedArgument q) (get q named) with Some e => Some e | None => nth_error (call_args pos named) i end) as [e0|] eqn:E0; [|discriminate E].
    cbn [obind] in E. destruct (pair_args (S i) params (call_args pos named)) as [r|] eqn:ER; [|discriminate E]. cbn [obind] in E. injection E as <-.
    destruct (IH _ _ ER) as [HL HN]. split; [cbn; lia|]. intros [|j] p e H; cbn [nth_error] in *.
    + injection H as <- <-. split; [reflexivity|]. rewrite Nat.add_0_r. destruct (get q named); [injection E0 as <-; reflexivity|exact E0].
    + apply HN in H. replace (i + S j) with (S i + j) by lia. exact H.
Qed.
Lemma list_nth_ext {A} (l l' : list A) : (forall j, nth_error l j = nth_error l' j) -> l = l'.
Proof.
  revert l'. induction l as [|x l IH]; intros [|y l'] H; [reflexivity|discriminate (H 0)|discriminate (H 0)|].
  pose proof (H 0) as H0. cbn in H0. injection H0 as <-. f_equal. apply IH. intros j. exact (H (S j)).
Qed.
Lemma pair_args_fits params pos named l : NoDup params -> NoDup (map fst named) -> unnamed pos -> fits params pos named -> pair_args 0 params (call_args pos named) = Some l ->
  map fst l = params /\
  forall p e, In (p, e) l <-> ((exists i, nth_error params i = Some p /\ nth_error pos i = Some e) \/ (exists v, e = NamedArgument p v /\ In (p, v) named)).
Proof.
  intros NP NN HP (L & K & D) E. destruct (pair_args_spec pos named HP params 0 l E) as [HL HN].
  assert (M : map fst l = params).
  { apply list_nth_ext. intros j. rewrite nth_error_map. destruct (nth_error l j) as [[p e]|] eqn:El; cbn [option_map fst].
    - apply HN in El. symmetry. apply El.
    - symmetry. apply nth_error_None. apply nth_error_None in El. lia. }
  split; [exact M|].
  assert (FI : forall i p, nth_error params i = Some p -> i < length pos -> get p named = None).
  { intros i p Hi Hlt. destruct (get p named) as [v|] eqn:G; [|reflexivity]. exfalso. apply get_In in G. apply (D _ _ G).
    apply nth_error_In with i. rewrite <- Hi. clear - Hlt. revert params Hlt. generalize (length pos). intros n params. revert i params. induction n as [|n IH]; intros i params H; [lia|].
    destruct params as [|q params]; [reflexivity|]. destruct i as [|i]; [reflexivity|]. cbn. apply IH. lia. }
  intros p e. split.
  - intros H. apply In_nth_error in H as [j H]. apply HN in H as [H1 H2]. destruct (get p named) as [v|] eqn:G.
    + right. exists v. split; [exact H2|]. apply get_In. exact G.
    + left. exists j. split; [exact H1|]. cbn [Nat.add] in H2. unfold call_args in H2. destruct (Nat.lt_ge_cases j (length pos)) as [Hlt|Hge]; [rewrite nth_error_app1 in H2 by exact Hlt; exact H2|].
      exfalso.
      (* the parameters from the [length pos]-th on are exactly the named ones *)
      assert (INC : incl (skipn (length pos) params) (map fst named)).
      { apply NoDup_length_incl; [exact NN|rewrite skipn_length, map_length; lia|]. intros k Hk. apply in_map_iff in Hk as ([k' v] & <- & Hk). cbn [fst].
        pose proof (K _ _ Hk) as HK. rewrite <- (firstn_skipn (length pos) params) in HK. apply in_app_or in HK as [HK|HK]; [exfalso; exact (D _ _ Hk HK)|exact HK]. }
      assert (HI : In p (skipn (length pos) params)).
      { rewrite <- (firstn_skipn (length pos) params) in H1. assert (LF : length (firstn (length pos) params) = length pos) by (rewrite firstn_length; lia).
        rewrite nth_error_app2 in H1 by lia. eapply nth_error_In. exact H1. }
      apply INC in HI. apply get_None_key in G. contradiction.
  - assert (EX : forall i, nth_error params i = Some p -> exists e', nth_error l i = Some (p, e')).
    { intros i Hi. rewrite <- M, nth_error_map in Hi. destruct (nth_error l i) as [[p' e']|]; [|discriminate Hi]. cbn in Hi. injection Hi as ->. eauto. }
    intros [(i & Hi & He)|(v & -> & Hv)].
    + destruct (EX i Hi) as [e' Hl]. pose proof (HN _ _ _ Hl) as [_ H2]. rewrite (FI i p Hi) in H2 by (apply nth_error_Some; congruence). cbn [Nat.add] in H2.
      unfold call_args in H2. rewrite nth_error_app1 in H2 by (apply nth_error_Some; congruence). rewrite He in H2. injection H2 as <-. eapply nth_error_In. exact Hl.
    + pose proof (K _ _ Hv) as HI. apply In_nth_error in HI as [i Hi]. destruct (EX i Hi) as [e' Hl]. pose proof (HN _ _ _ Hl) as [_ H2].
      assert (G : get p named = Some v).
      { clear - NN Hv. induction named as [|[k u] named IH]; [destruct Hv|]. cbn [map fst] in NN. inversion NN as [|? ? N1 N2]; subst. cbn [get]. destruct Hv as [H|H].
        - injection H as -> ->. rewrite str_eqb_refl. reflexivity.
        - destruct (str_eqb p k) eqn:Ek; [|apply IH; assumption]. apply str_eqb_eq in Ek. subst. exfalso. apply N1. apply in_map_iff. exists (k, v). split; [reflexivity|exact H]. }
      rewrite G in H2. subst e'. eapply nth_error_In. exact Hl.
Qed.
