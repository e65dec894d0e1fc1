(** * Reasoning about parsers: positions, consumption, languages. *)
From Verif Require Import Base Nom.
From Coq Require Import ZifyBool ZifyNat ZifyN.
Local Open Scope N_scope.

(** ** Positions *)
Definition suffix (r i : str) : Prop := exists a, i = a ++ r.
Lemma suffix_refl i : suffix i i.
Proof. exists []. reflexivity. Qed.
Lemma suffix_trans a b c : suffix a b -> suffix b c -> suffix a c.
Proof. intros [x ->] [y ->]. exists (y ++ x). now rewrite app_assoc. Qed.
Lemma suffix_cons c r i : suffix r i -> suffix r (c :: i).
Proof. intros [x ->]. exists (c :: x). reflexivity. Qed.
Lemma suffix_app a r : suffix r (a ++ r).
Proof. now exists a. Qed.
Lemma suffix_nil i : suffix [] i.
Proof. exists i. now rewrite app_nil_r. Qed.
Lemma suffix_len r i : suffix r i -> (length r <= length i)%nat.
Proof. intros [a ->]. rewrite app_length. lia. Qed.
Lemma suffix_len_eq r i : suffix r i -> length r = length i -> r = i.
Proof. intros [a ->] H. rewrite app_length in H. destruct a; cbn in *; [reflexivity|lia]. Qed.
Lemma before_app a r : before (a ++ r) r = a.
Proof. unfold before. rewrite app_length, Nat.add_sub, firstn_app, Nat.sub_diag, firstn_all. cbn. now rewrite app_nil_r. Qed.
Global Hint Resolve suffix_refl suffix_nil suffix_cons suffix_app : core.

(** [good w p Q]: started at a position of [w], [p] ends at a later position with a value in [Q], or with an error at a
    position of [w]; it is never stuck. *)
Definition good {A} (w : str) (p : P A) (Q : A -> Prop) : Prop :=
  forall i, suffix i w ->
  match p i with
  | POk r a => suffix r i /\ Q a
  | PErr e _ | PFail e _ => suffix e w
  | PStuck => False
  end.

Section Good.
  Variable w : str.
  Lemma good_weaken {A} (p : P A) (Q R : A -> Prop) : good w p Q -> (forall a, Q a -> R a) -> good w p R.
  Proof. intros H HR i Hi. specialize (H i Hi). destruct (p i); intuition. Qed.
  Lemma good_true {A} (p : P A) (Q : A -> Prop) : good w p Q -> good w p (fun _ => True).
  Proof. intros H. eapply good_weaken; eauto. Qed.
  Lemma good_ret {A} (a : A) (Q : A -> Prop) : Q a -> good w (pret a) Q.
  Proof. intros H i Hi. cbn. auto. Qed.
  Lemma good_bind {A B} (p : P A) (k : A -> P B) Q R :
    good w p Q -> (forall a, Q a -> good w (k a) R) -> good w (pbind p k) R.
  Proof.
    intros Hp Hk i Hi. unfold pbind. specialize (Hp i Hi). destruct (p i) as [r a|e m|e m|]; auto.
    destruct Hp as [Hr HQ]. specialize (Hk a HQ r (suffix_trans _ _ _ Hr Hi)).
    destruct (k a r) as [r' b|e m|e m|]; auto. destruct Hk as [Hr' HR]. split; auto. eapply suffix_trans; eauto.
  Qed.
  Lemma good_seq {A B} (p : P A) (k : P B) R : good w p (fun _ => True) -> good w k R -> good w (pbind p (fun _ => k)) R.
  Proof. intros Hp Hk. eapply good_bind; eauto. Qed.
  Lemma good_map {A B} (f : A -> B) (p : P A) (Q : A -> Prop) (R : B -> Prop) :
    good w p Q -> (forall a, Q a -> R (f a)) -> good w (pmap f p) R.
  Proof. intros H HR i Hi. unfold pmap. specialize (H i Hi). destruct (p i); intuition. Qed.
  Lemma good_value {A B} (b : B) (p : P A) (R : B -> Prop) : good w p (fun _ => True) -> R b -> good w (value b p) R.
  Proof. intros H HR. eapply good_map; eauto. Qed.
  Lemma good_perr {A} (Q : A -> Prop) : good w (@perr A) Q.
  Proof. intros i Hi. exact Hi. Qed.
  Lemma good_cut {A} (p : P A) Q : good w p Q -> good w (cut p) Q.
  Proof. intros H i Hi. unfold cut. specialize (H i Hi). destruct (p i); auto. Qed.
  Lemma good_opt {A} (p : P A) (Q : A -> Prop) : good w p Q -> good w (opt p) (fun o => match o with Some a => Q a | None => True end).
  Proof. intros H i Hi. unfold opt. specialize (H i Hi). destruct (p i); auto. Qed.
  Lemma good_opt_true {A} (p : P A) : good w p (fun _ => True) -> good w (opt p) (fun _ => True).
  Proof. intros H. eapply good_true, good_opt, H. Qed.
  Lemma good_or {A} (p q : P A) Q : good w p Q -> good w q Q -> good w (p <|> q) Q.
  Proof. intros Hp Hq i Hi. unfold por. specialize (Hp i Hi). specialize (Hq i Hi). destruct (p i); auto. Qed.
  Lemma good_not {A} (p : P A) : good w p (fun _ => True) -> good w (pnot p) (fun _ => True).
  Proof. intros H i Hi. unfold pnot. specialize (H i Hi). destruct (p i); auto. Qed.
  Lemma good_peek {A} (p : P A) (Q : A -> Prop) : good w p Q -> good w (peek p) Q.
  Proof. intros H i Hi. unfold peek. specialize (H i Hi). destruct (p i); intuition. Qed.
  Lemma good_recognize {A} (p : P A) : good w p (fun _ => True) -> good w (recognize p) (fun _ => True).
  Proof. intros H i Hi. unfold recognize. specialize (H i Hi). destruct (p i); auto. Qed.
  Lemma good_consumed {A} (p : P A) (Q : A -> Prop) : good w p Q -> good w (consumed p) (fun x => Q (snd x)).
  Proof. intros H i Hi. unfold consumed. specialize (H i Hi). destruct (p i); auto. Qed.
  Lemma good_eof : good w eof (fun _ => True).
  Proof. intros [|c i] Hi; cbn; auto. Qed.
  Lemma good_satisfy f : good w (satisfy f) (fun _ => True).
  Proof. intros [|c i] Hi; cbn; auto. destruct (f c); auto. Qed.
  Lemma good_pchar c : good w (pchar c) (fun _ => True).
  Proof. apply good_satisfy. Qed.
  Lemma good_one_of s : good w (one_of s) (fun _ => True).
  Proof. apply good_satisfy. Qed.
  Lemma good_tag t : good w (tag t) (fun s => s = t).
  Proof.
    intros i Hi. unfold tag. destruct (strip_prefix t i) as [r|] eqn:E; auto. apply strip_prefix_Some in E. subst i. auto.
  Qed.
  Lemma good_tag_true t : good w (tag t) (fun _ => True).
  Proof. eapply good_true, good_tag. Qed.
  Lemma span_app f i : i = fst (span f i) ++ snd (span f i).
  Proof. induction i as [|c i IH]; cbn; auto. destruct (f c); cbn; auto. destruct (span f i); cbn in *. congruence. Qed.
  Lemma span_all f i : Forall (fun c => f c = true) (fst (span f i)).
  Proof. induction i as [|c i IH]; cbn; auto. destruct (f c) eqn:E; cbn; auto. destruct (span f i); cbn in *. auto. Qed.
  Lemma good_take_till f : good w (take_till f) (fun _ => True).
  Proof.
    intros i Hi. unfold take_till. pose proof (span_app (fun c => negb (f c)) i) as H.
    destruct (span _ i) as [a r]; cbn in *. subst i. auto.
  Qed.
  Lemma good_split1 f : good w (split_at_position1 f) (fun _ => True).
  Proof.
    intros i Hi. unfold split_at_position1. pose proof (span_app (fun c => negb (f c)) i) as H.
    destruct (span _ i) as [[|c a] r]; cbn [fst snd] in *; auto. rewrite H. auto.
  Qed.
  Lemma span_max_app n f i : i = fst (span_max n f i) ++ snd (span_max n f i).
  Proof.
    revert i; induction n as [|n IH]; intros [|c i]; cbn; auto. destruct (f c); cbn; auto. specialize (IH i).
    destruct (span_max n f i); cbn in *. congruence.
  Qed.
  Lemma good_take_while_m_n m n f : good w (take_while_m_n m n f) (fun _ => True).
  Proof.
    intros i Hi. unfold take_while_m_n. pose proof (span_max_app n f i) as H. destruct (span_max n f i) as [a r]; cbn [fst snd] in *.
    subst i. destruct (Nat.ltb (length a) m); auto.
  Qed.

  Lemma good_many0_fuel {A} (p : P A) (Q : A -> Prop) : good w p Q ->
    forall n i, suffix i w -> (length i < n)%nat ->
    match many0_fuel n p i with
    | POk r l => suffix r i /\ Forall Q l
    | PErr e _ | PFail e _ => suffix e w
    | PStuck => False
    end.
  Proof.
    intros Hp. induction n as [|n IH]; intros i Hi Hn; [lia|]. cbn. pose proof (Hp i Hi) as H.
    destruct (p i) as [r a|e m|e m|]; auto. destruct H as [Hr HQ].
    destruct (Nat.eqb_spec (length r) (length i)) as [E|E]; auto.
    pose proof (suffix_len _ _ Hr) as L. specialize (IH r (suffix_trans _ _ _ Hr Hi) ltac:(lia)).
    destruct (many0_fuel n p r) as [r' l|e m|e m|]; auto. destruct IH as [H1 H2]. split; [eapply suffix_trans; eauto|constructor; auto].
  Qed.
  Lemma good_many0 {A} (p : P A) (Q : A -> Prop) : good w p Q -> good w (many0 p) (Forall Q).
  Proof. intros Hp i Hi. apply good_many0_fuel; auto. Qed.
  Lemma good_many0_true {A} (p : P A) : good w p (fun _ => True) -> good w (many0 p) (fun _ => True).
  Proof. intros H. eapply good_true, good_many0, H. Qed.
  Lemma good_many1 {A} (p : P A) (Q : A -> Prop) : good w p Q -> good w (many1 p) (Forall Q).
  Proof.
    intros Hp i Hi. unfold many1. pose proof (Hp i Hi) as H. destruct (p i) as [r a|e m|e m|]; auto. destruct H as [Hr HQ].
    pose proof (good_many0_fuel p Q Hp (S (length r)) r (suffix_trans _ _ _ Hr Hi) ltac:(lia)) as H.
    destruct (many0_fuel _ p r) as [r' l|e m|e m|]; auto. destruct H as [H1 H2]. split; [eapply suffix_trans; eauto|constructor; auto].
  Qed.
  Lemma good_many1_true {A} (p : P A) : good w p (fun _ => True) -> good w (many1 p) (fun _ => True).
  Proof. intros H. eapply good_true, good_many1, H. Qed.

  (** Separated lists with a state: [I st l] relates the state to the elements still to come. *)
  Lemma good_sep_loop {S A B} (sep : P B) (p : S -> P (S * A)) (I : S -> Prop) (R : S -> list A -> Prop) :
    good w sep (fun _ => True) ->
    (forall st, I st -> good w (p st) (fun x => I (fst x) /\ forall l, R (fst x) l -> R st (snd x :: l))) ->
    (forall st, I st -> R st []) ->
    forall n st i, I st -> suffix i w -> (length i < n)%nat ->
    match sep_loop n sep p st i with
    | POk r l => suffix r i /\ R st l
    | PErr e _ | PFail e _ => suffix e w
    | PStuck => False
    end.
  Proof.
    intros Hs Hp H0. induction n as [|n IH]; intros st i HI Hi Hn; [lia|]. cbn. pose proof (Hs i Hi) as H.
    destruct (sep i) as [r b|e m|e m|]; auto. destruct H as [Hr _]. assert (Hrw : suffix r w) by (eapply suffix_trans; eauto).
    destruct (Nat.eqb_spec (length r) (length i)) as [E|E]; auto.
    pose proof (suffix_len _ _ Hr) as L. pose proof (Hp st HI r Hrw) as H. destruct (p st r) as [r2 [st2 a]|e m|e m|]; auto.
    cbn in H. destruct H as [Hr2 [HI2 HR2]]. pose proof (suffix_len _ _ Hr2) as L2.
    specialize (IH st2 r2 HI2 (suffix_trans _ _ _ Hr2 Hrw) ltac:(lia)).
    destruct (sep_loop n sep p st2 r2) as [r' l|e m|e m|]; auto. destruct IH as [H1 H2]. split; auto.
    eapply suffix_trans; [exact H1|]. eapply suffix_trans; eauto.
  Qed.
  Lemma good_separated_list0_st {S A B} (sep : P B) (p : S -> P (S * A)) (I : S -> Prop) (R : S -> list A -> Prop) st :
    good w sep (fun _ => True) ->
    (forall st, I st -> good w (p st) (fun x => I (fst x) /\ forall l, R (fst x) l -> R st (snd x :: l))) ->
    (forall st, I st -> R st []) -> I st -> good w (separated_list0_st sep p st) (R st).
  Proof.
    intros Hs Hp H0 HI i Hi. unfold separated_list0_st. pose proof (Hp st HI i Hi) as H.
    destruct (p st i) as [r [st2 a]|e m|e m|]; auto. cbn in H. destruct H as [Hr [HI2 HR2]].
    pose proof (good_sep_loop sep p I R Hs Hp H0 (Datatypes.S (length r)) st2 r HI2 (suffix_trans _ _ _ Hr Hi) ltac:(lia)) as H.
    destruct (sep_loop _ sep p st2 r) as [r' l|e m|e m|]; auto. destruct H as [H1 H2]. split; auto. eapply suffix_trans; eauto.
  Qed.
  Lemma good_separated_list0 {A B} (sep : P B) (p : P A) (Q : A -> Prop) :
    good w sep (fun _ => True) -> good w p Q -> good w (separated_list0 sep p) (Forall Q).
  Proof.
    intros Hs Hp. apply (good_separated_list0_st sep _ (fun _ => True) (fun _ => Forall Q)); auto.
    intros st _. eapply good_map; [exact Hp|]. cbn. auto.
  Qed.
  (** A parser that looks at its own start position. *)
  Lemma good_here {A} (f : str -> P A) Q : (forall start, suffix start w -> good w (f start) Q) -> good w (fun i => f i i) Q.
  Proof. intros H i Hi. exact (H i Hi i Hi). Qed.
  Lemma good_fail {A} e m (Q : A -> Prop) : suffix e w -> good w (fun _ => PFail e m) Q.
  Proof. intros H i Hi. exact H. Qed.
  Lemma good_fail_here {A} (f : str -> option str) (Q : A -> Prop) : good w (fun i => PFail i (f i)) Q.
  Proof. intros i Hi. exact Hi. Qed.
End Good.

Lemma good_suffix {A} (p : P A) Q i r a : (forall w, good w p Q) -> p i = POk r a -> suffix r i /\ Q a.
Proof. intros H E. specialize (H i i (suffix_refl i)). now rewrite E in H. Qed.

(** [shrinks p]: success consumes something. *)
Definition shrinks {A} (p : P A) : Prop := forall i r a, p i = POk r a -> (length r < length i)%nat.
Definition nogrow {A} (p : P A) : Prop := forall i r a, p i = POk r a -> (length r <= length i)%nat.
Lemma good_nogrow {A} (p : P A) Q : (forall w, good w p Q) -> nogrow p.
Proof. intros H i r a E. apply suffix_len. exact (proj1 (good_suffix p Q i r a H E)). Qed.
Lemma shrinks_bind_l {A B} (p : P A) (k : A -> P B) : shrinks p -> (forall a, nogrow (k a)) -> shrinks (pbind p k).
Proof.
  intros Hp Hk i r b. unfold pbind. destruct (p i) as [r1 a|e m|e m|] eqn:E; try discriminate. intros E2.
  apply Hp in E. apply Hk in E2. lia.
Qed.
Lemma shrinks_bind_r {A B} (p : P A) (k : A -> P B) : nogrow p -> (forall a, shrinks (k a)) -> shrinks (pbind p k).
Proof.
  intros Hp Hk i r b. unfold pbind. destruct (p i) as [r1 a|e m|e m|] eqn:E; try discriminate. intros E2.
  apply Hp in E. apply Hk in E2. lia.
Qed.
Lemma shrinks_map {A B} (f : A -> B) p : shrinks p -> shrinks (pmap f p).
Proof. intros H i r b. unfold pmap. destruct (p i) eqn:E; try discriminate. intros [= -> _]. eauto. Qed.
Lemma shrinks_or {A} (p q : P A) : shrinks p -> shrinks q -> shrinks (p <|> q).
Proof. intros Hp Hq i r a. unfold por. destruct (p i) eqn:E; intros E2; try discriminate; eauto. injection E2 as -> ->. eauto. Qed.
Lemma shrinks_satisfy f : shrinks (satisfy f).
Proof. intros [|c i] r a; cbn; try discriminate. destruct (f c); try discriminate. intros [= <- _]. lia. Qed.
Lemma shrinks_pchar c : shrinks (pchar c).
Proof. apply shrinks_satisfy. Qed.
Lemma shrinks_tag t : t <> [] -> shrinks (tag t).
Proof.
  intros Ht i r a. unfold tag. destruct (strip_prefix t i) eqn:E; try discriminate. intros [= <- _].
  apply strip_prefix_Some in E. subst i. rewrite app_length. destruct t; cbn; [congruence|lia].
Qed.

(** ** Languages: what a parser consumed. *)
Definition lang := str -> Prop.
Definition recog {A} (p : P A) (L : lang) : Prop := forall i r a, p i = POk r a -> exists s, i = s ++ r /\ L s.
(** The value is the consumed text itself. *)
Definition recog_id (p : P str) (L : lang) : Prop := forall i r a, p i = POk r a -> i = a ++ r /\ L a.
Definition lcat (L1 L2 : lang) : lang := fun s => exists a b, s = a ++ b /\ L1 a /\ L2 b.
Definition lalt (L1 L2 : lang) : lang := fun s => L1 s \/ L2 s.
Definition lopt (L : lang) : lang := fun s => s = [] \/ L s.
Definition lstr (t : str) : lang := fun s => s = t.
Definition lchar (f : N -> bool) : lang := fun s => exists c, s = [c] /\ f c = true.
Definition lstar (f : N -> bool) : lang := fun s => Forall (fun c => f c = true) s.

Lemma recog_weaken {A} (p : P A) (L L' : lang) : recog p L -> (forall s, L s -> L' s) -> recog p L'.
Proof. intros H HL i r a E. destruct (H i r a E) as [s [-> Hs]]. eauto. Qed.
Lemma recog_ret {A} (a : A) : recog (pret a) (lstr []).
Proof. intros i r b [= <- <-]. exists []. split; reflexivity. Qed.
Lemma recog_bind {A B} (p : P A) (k : A -> P B) L1 L2 : recog p L1 -> (forall a, recog (k a) L2) -> recog (pbind p k) (lcat L1 L2).
Proof.
  intros Hp Hk i r b. unfold pbind. destruct (p i) as [r1 a|e m|e m|] eqn:E; try discriminate. intros E2.
  destruct (Hp _ _ _ E) as [s1 [-> H1]]. destruct (Hk _ _ _ _ E2) as [s2 [-> H2]].
  exists (s1 ++ s2). rewrite app_assoc. split; auto. exists s1, s2. auto.
Qed.
Lemma recog_or {A} (p q : P A) L1 L2 : recog p L1 -> recog q L2 -> recog (p <|> q) (lalt L1 L2).
Proof.
  intros Hp Hq i r a. unfold por. destruct (p i) as [r1 a1|e m|e m|] eqn:E; intros E2; try discriminate.
  - injection E2 as -> ->. destruct (Hp _ _ _ E) as [s [-> H]]. exists s. split; auto. now left.
  - destruct (Hq _ _ _ E2) as [s [-> H]]. exists s. split; auto. now right.
Qed.
Lemma recog_opt {A} (p : P A) L : recog p L -> recog (opt p) (lopt L).
Proof.
  intros Hp i r a. unfold opt. destruct (p i) as [r1 a1|e m|e m|] eqn:E; intros E2; try discriminate; injection E2 as <- <-.
  - destruct (Hp _ _ _ E) as [s [-> H]]. exists s. split; auto. now right.
  - exists []. split; auto. now left.
Qed.
Lemma recog_recognize {A} (p : P A) L : recog p L -> recog_id (recognize p) L.
Proof.
  intros Hp i r a. unfold recognize. destruct (p i) as [r1 a1|e m|e m|] eqn:E; intros E2; try discriminate. injection E2 as <- <-.
  destruct (Hp _ _ _ E) as [s [-> H]]. rewrite before_app. auto.
Qed.
Lemma recog_of_id (p : P str) L : recog_id p L -> recog p L.
Proof. intros H i r a E. exists a. eauto. Qed.
Lemma recog_satisfy f : recog (satisfy f) (lchar f).
Proof.
  intros [|c i] r a; cbn; try discriminate. destruct (f c) eqn:E; try discriminate. intros [= <- _]. exists [c]. split; auto.
  exists c. auto.
Qed.
Lemma recog_tag t : recog (tag t) (lstr t).
Proof.
  intros i r a. unfold tag. destruct (strip_prefix t i) eqn:E; try discriminate. intros [= <- _].
  apply strip_prefix_Some in E. exists t. split; auto. reflexivity.
Qed.
Lemma recog_many0_chars (p : P N) f : recog p (lchar f) -> recog (many0 p) (lstar f).
Proof.
  intros Hp i. unfold many0. generalize (S (length i)) as n. intros n. revert i. induction n as [|n IH]; intros i r l; cbn; try discriminate.
  destruct (p i) as [r1 a|e m|e m|] eqn:E; try discriminate.
  - destruct (Nat.eqb _ _); try discriminate. destruct (many0_fuel n p r1) as [r2 l2|e m|e m|] eqn:E2; try discriminate.
    intros [= <- <-]. destruct (Hp _ _ _ E) as [s [-> [c [-> Hc]]]]. destruct (IH _ _ _ E2) as [s2 [-> H2]].
    exists (c :: s2). split; auto. constructor; auto.
  - intros [= <- <-]. exists []. split; auto. constructor.
Qed.
