(** * The template parser: positions, termination, and well-formed results. *)
From Verif Require Import Base Config ConfigFacts Nom Ws Ast Lex ParseExpr ParseNode NomFacts LexFacts LitSpec LitFacts ParseSpec ExprFacts WsFacts.
From Coq Require Import ZifyBool ZifyNat ZifyN.
Local Open Scope N_scope.

(** Like [good], for parsers with state, started in loop depth [n]: the level never decreases, the loop depth is restored;
    [d] more levels reach the limit. *)
Definition goodr {A} (w : str) (n : nat) (l : nat) (i : str) (Q : A -> Prop) (x : pres A * pstate) : Prop :=
  (l <= level (snd x))%nat /\ loop_depth (snd x) = n /\
  match fst x with
  | POk r a => suffix r i /\ Q a
  | PErr e _ | PFail e _ => suffix e w
  | PStuck => False
  end.
Definition goodm {A} (w : str) (d n : nat) (p : M A) (Q : A -> Prop) : Prop :=
  forall s i, suffix i w -> (MAX_DEPTH <= level s + d)%nat -> loop_depth s = n -> goodr w n (level s) i Q (p s i).

Section GoodM.
  Variables (w : str) (d n : nat).
  Notation goodm := (goodm w d n).
  Lemma goodm_weaken {A} (p : M A) (Q R : A -> Prop) : goodm p Q -> (forall a, Q a -> R a) -> goodm p R.
  Proof. intros H HR s i Hi Hd Hn. specialize (H s i Hi Hd Hn). unfold goodr in *. destruct (p s i) as [r s']. cbn [fst snd] in *. destruct r; intuition. Qed.
  Lemma goodm_lift {A} (p : P A) (Q : A -> Prop) : good w p Q -> goodm (lift p) Q.
  Proof. intros H s i Hi Hd Hn. cbn. specialize (H i Hi). repeat split; auto. Qed.
  Lemma goodm_lift_true {A} (p : P A) : good w p (fun _ => True) -> goodm (lift p) (fun _ => True).
  Proof. apply goodm_lift. Qed.
  Lemma goodm_ret {A} (a : A) (Q : A -> Prop) : Q a -> goodm (mret a) Q.
  Proof. intros H s i Hi Hd Hn. repeat split; auto. Qed.
  Lemma goodm_bind {A B} (p : M A) (k : A -> M B) (Q : A -> Prop) (R : B -> Prop) :
    goodm p Q -> (forall a, Q a -> goodm (k a) R) -> goodm (mbind p k) R.
  Proof.
    intros Hp Hk s i Hi Hd Hn. unfold mbind. specialize (Hp s i Hi Hd Hn). destruct (p s i) as [r s1]. destruct Hp as (Hl & Hlp & H).
    cbn [fst snd] in *. destruct r as [r a|e m|e m|]; [|repeat split; auto..]. destruct H as [Hr HQ].
    specialize (Hk a HQ s1 r (suffix_trans _ _ _ Hr Hi) ltac:(lia) Hlp). destruct (k a s1 r) as [r2 s2]. destruct Hk as (Hl2 & Hlp2 & H2).
    cbn [fst snd] in *. repeat split; [cbn; lia|assumption|]. cbn. destruct r2 as [r2 b|e m|e m|]; auto. destruct H2 as [H2 H3]. split; auto.
    eapply suffix_trans; eauto.
  Qed.
  Lemma goodm_seq {A B} (p : M A) (k : M B) R : goodm p (fun _ => True) -> goodm k R -> goodm (mbind p (fun _ => k)) R.
  Proof. intros Hp Hk. eapply goodm_bind; [exact Hp|]. auto. Qed.
  Lemma goodm_with_level {A} (p : nat -> P A) (Q : A -> Prop) : (forall l, good w (p l) Q) -> goodm (with_level p) Q.
  Proof. intros H s i Hi Hd Hn. specialize (H (level s) i Hi). repeat split; auto. Qed.
  Lemma goodm_map {A B} (f : A -> B) (p : M A) (Q : A -> Prop) (R : B -> Prop) :
    goodm p Q -> (forall a, Q a -> R (f a)) -> goodm (mmap f p) R.
  Proof. intros H HR s i Hi Hd Hn. unfold mmap. specialize (H s i Hi Hd Hn). unfold goodr in *. destruct (p s i) as [[] s']; cbn [fst snd] in *; intuition. Qed.
  Lemma goodm_cut {A} (p : M A) Q : goodm p Q -> goodm (mcut p) Q.
  Proof. intros H s i Hi Hd Hn. unfold mcut. specialize (H s i Hi Hd Hn). unfold goodr in *. destruct (p s i) as [[] s']; cbn [fst snd] in *; intuition. Qed.
  Lemma goodm_opt {A} (p : M A) (Q : A -> Prop) : goodm p Q -> goodm (mopt p) (fun o => forall a, o = Some a -> Q a).
  Proof.
    intros H s i Hi Hd Hn. unfold mopt. specialize (H s i Hi Hd Hn). unfold goodr in *. destruct (p s i) as [[] s']; cbn [fst snd] in *; intuition; congruence.
  Qed.
  Lemma goodm_or {A} (p q : M A) Q : goodm p Q -> goodm q Q -> goodm (p <||> q) Q.
  Proof.
    intros Hp Hq s i Hi Hd Hn. unfold mor. specialize (Hp s i Hi Hd Hn). destruct (p s i) as [r s1]. destruct Hp as (Hl & Hlp & H).
    cbn [fst snd] in *. destruct r as [r a|e m|e m|]; try solve [repeat split; cbn; auto; try tauto]. specialize (Hq s1 i Hi ltac:(lia) Hlp). destruct (q s1 i) as [r2 s2].
    destruct Hq as (Hl2 & Hlp2 & H2). cbn [fst snd] in *. split; [cbn; lia|split; auto].
  Qed.
  Lemma goodm_ws {A} (p : M A) Q : goodm p Q -> goodm (mws p) Q.
  Proof.
    intros H. unfold mws. apply goodm_seq; [apply goodm_lift_true; auto with good|]. eapply goodm_bind; [exact H|]. intros a Ha.
    apply goodm_seq; [apply goodm_lift_true; auto with good|]. now apply goodm_ret.
  Qed.
  Lemma goodm_many0_fuel {A} (p : M A) (Q : A -> Prop) : goodm p Q ->
    forall f s i, suffix i w -> (MAX_DEPTH <= level s + d)%nat -> loop_depth s = n -> (length i < f)%nat ->
    goodr w n (level s) i (Forall Q) (mmany0_fuel f p s i).
  Proof.
    intros Hp. induction f as [|f IH]; intros s i Hi Hd Hn Hf; [lia|]. cbn [mmany0_fuel]. pose proof (Hp s i Hi Hd Hn) as H.
    destruct (p s i) as [r s1]. destruct H as (Hl & Hlp & H). cbn [fst snd] in *. destruct r as [r a|e m|e m|]; try solve [repeat split; cbn; auto; try tauto]. destruct H as [Hr HQ].
    destruct (Nat.eqb_spec (length r) (length i)) as [E|E]; [repeat split; auto|]. pose proof (suffix_len _ _ Hr) as L.
    specialize (IH s1 r (suffix_trans _ _ _ Hr Hi) ltac:(lia) Hlp ltac:(lia)). destruct (mmany0_fuel f p s1 r) as [r2 s2].
    destruct IH as (Hl2 & Hlp2 & H2). cbn [fst snd] in *. destruct r2 as [r2 l|e m|e m|]; repeat split; cbn; try lia; try tauto.
    - eapply suffix_trans; [apply H2|exact Hr].
    - constructor; tauto.
  Qed.
  Lemma goodm_many0 {A} (p : M A) (Q : A -> Prop) : goodm p Q -> goodm (mmany0 p) (Forall Q).
  Proof. intros H s i Hi Hd Hn. apply goodm_many0_fuel; auto. Qed.
  Lemma goodm_many1 {A} (p : M A) (Q : A -> Prop) : goodm p Q -> goodm (mmany1 p) (fun l => exists a l', l = a :: l' /\ Forall Q l).
  Proof.
    intros H. unfold mmany1. eapply goodm_bind; [exact H|]. intros a Ha. eapply goodm_bind; [apply goodm_many0, H|]. intros l Hl.
    apply goodm_ret. exists a, l. split; auto.
  Qed.
  Lemma goodm_sep_loop {A B} (sep : P B) (p : M A) (Q : A -> Prop) : good w sep (fun _ => True) -> goodm p Q ->
    forall f s i, suffix i w -> (MAX_DEPTH <= level s + d)%nat -> loop_depth s = n -> (length i < f)%nat ->
    goodr w n (level s) i (Forall Q) (msep_loop f sep p s i).
  Proof.
    intros Hs Hp. induction f as [|f IH]; intros s i Hi Hd Hn Hf; [lia|]. cbn [msep_loop]. pose proof (Hs i Hi) as H.
    destruct (sep i) as [r b|e m|e m|]; try solve [repeat split; cbn; auto; try tauto]. destruct H as [Hr _]. assert (Hrw : suffix r w) by (eapply suffix_trans; eauto).
    destruct (Nat.eqb_spec (length r) (length i)) as [E|E]; [repeat split; auto|]. pose proof (suffix_len _ _ Hr) as L.
    pose proof (Hp s r Hrw Hd Hn) as H. destruct (p s r) as [r1 s1]. destruct H as (Hl & Hlp & H). cbn [fst snd] in *.
    destruct r1 as [r1 a|e m|e m|]; try solve [repeat split; cbn; auto; try tauto].
    destruct H as [Hr1 HQ]. pose proof (suffix_len _ _ Hr1) as L1.
    specialize (IH s1 r1 (suffix_trans _ _ _ Hr1 Hrw) ltac:(lia) Hlp ltac:(lia)). destruct (msep_loop f sep p s1 r1) as [r2 s2].
    destruct IH as (Hl2 & Hlp2 & H2). cbn [fst snd] in *. destruct r2 as [r2 l|e m|e m|]; repeat split; cbn; try lia; try tauto.
    - eapply suffix_trans; [apply H2|]. eapply suffix_trans; eauto.
    - constructor; tauto.
  Qed.
  Lemma goodm_sep1 {A B} (sep : P B) (p : M A) (Q : A -> Prop) : good w sep (fun _ => True) -> goodm p Q ->
    goodm (mseparated_list1 sep p) (fun l => l <> [] /\ Forall Q l).
  Proof.
    intros Hs Hp. unfold mseparated_list1. eapply goodm_bind; [exact Hp|]. intros a Ha.
    eapply goodm_bind with (Q := Forall Q); [intros s i Hi Hd Hn; apply goodm_sep_loop; auto|]. intros l Hl.
    apply goodm_ret. split; [discriminate|]. constructor; auto.
  Qed.
  Lemma goodm_here {A} (f : str -> M A) Q : (forall start, suffix start w -> goodm (f start) Q) -> goodm (fun s i => f i s i) Q.
  Proof. intros H s i Hi Hd. exact (H i Hi s i Hi Hd). Qed.
  Lemma goodm_fail {A} e m (Q : A -> Prop) : suffix e w -> goodm (fun s _ => (PFail e m, s)) Q.
  Proof. intros H s i Hi Hd Hn. repeat split; auto. Qed.

  (** The same from positions of [b], ending at any position of [b]. *)
  Definition goodb {A} (b : str) (p : M A) (Q : A -> Prop) : Prop :=
    forall s i, suffix i b -> (MAX_DEPTH <= level s + d)%nat -> loop_depth s = n -> goodr w n (level s) b Q (p s i).
  Lemma goodb_of {A} b (p : M A) Q : suffix b w -> goodm p Q -> goodb b p Q.
  Proof.
    intros Hb H s i Hi Hd Hn. specialize (H s i (suffix_trans _ _ _ Hi Hb) Hd Hn). destruct H as (H1 & H2 & H3). repeat split; auto.
    destruct (fst (p s i)); auto. destruct H3. split; auto. eapply suffix_trans; eauto.
  Qed.
  Lemma goodb_bind {A B} b (p : M A) (k : A -> M B) (Q : A -> Prop) (R : B -> Prop) :
    goodb b p Q -> (forall a, Q a -> goodb b (k a) R) -> goodb b (mbind p k) R.
  Proof.
    intros Hp Hk s i Hi Hd Hn. unfold mbind. specialize (Hp s i Hi Hd Hn). destruct (p s i) as [r s1]. destruct Hp as (Hl & Hlp & H).
    cbn [fst snd] in *. destruct r as [r a|e m|e m|]; try solve [repeat split; cbn; auto; try tauto]. destruct H as [Hr HQ].
    specialize (Hk a HQ s1 r Hr ltac:(lia) Hlp). destruct (k a s1 r) as [r2 s2]. destruct Hk as (Hl2 & Hlp2 & H2).
    cbn [fst snd] in *. split; [cbn; lia|split; auto].
  Qed.
  Lemma goodb_here {A} (f : str -> M A) Q : (forall b, suffix b w -> goodb b (f b) Q) -> goodm (fun s i => f i s i) Q.
  Proof. intros H s i Hi Hd Hn. exact (H i Hi s i (suffix_refl i) Hd Hn). Qed.
  Lemma goodb_back {A} b (a : A) (Q : A -> Prop) : Q a -> goodb b (fun s _ => (POk b a, s)) Q.
  Proof. intros H s i Hi Hd Hn. repeat split; cbn; auto. Qed.
End GoodM.
Lemma goodm_max {A} w d n (p : M A) Q : goodm w MAX_DEPTH n p Q -> goodm w d n p Q.
Proof. intros H s i Hi Hd Hn. apply H; auto. lia. Qed.

(** ** Small parsers *)
Lemma good_whitespace w : good w whitespace (fun _ => True).
Proof. unfold whitespace. good_true. Qed.
Lemma good_ows w : good w ows (fun _ => True).
Proof. unfold ows. apply good_opt_true, good_whitespace. Qed.
Lemma good_pws_pchar w c : good w (pws (pchar c)) (fun _ => True).
Proof. apply good_pws; auto with good. Qed.
Lemma good_pws_kw w k : good w (pws (keyword k)) (fun _ => True).
Proof. apply good_pws; auto with good. Qed.
Global Hint Resolve good_whitespace good_ows good_pws_pchar good_pws_kw : good.
Lemma good_opt_char w c : good w (opt_char c) (fun _ => True).
Proof. unfold opt_char. good_true. Qed.
Global Hint Resolve good_opt_char : good.

Ltac mtrue := apply goodm_lift_true; good_true.
Ltac mseq := apply goodm_seq; [mtrue|].

Lemma good_target_lit w : good w target_lit wf_target.
Proof.
  unfold target_lit. apply good_or; [eapply good_map; [apply good_str_lit|intros; now constructor]|].
  apply good_or; [eapply good_map; [apply good_char_lit|intros; now constructor]|].
  apply good_or; [eapply good_map; [apply good_num_lit|intros; now constructor]|].
  eapply good_map with (Q := fun s => In s [lit "false"; lit "true"]); [|intros; now constructor].
  unfold bool_lit. apply good_or; (eapply good_weaken; [apply good_keyword|]); intros a ->; cbn; auto.
Qed.
Lemma good_verify_name w input name : suffix input w -> ident name -> good w (verify_name input name) wf_target.
Proof.
  intros Hi Hn i H. unfold verify_name. destruct (str_eqb name (lit "self")) eqn:E1; cbn [orb]; auto.
  destruct (str_eqb name (lit "writer")) eqn:E2; auto. split; auto. constructor; auto. intros [E|[E|[]]]; subst name.
  - rewrite str_eqb_refl in E1. discriminate.
  - rewrite str_eqb_refl in E2. discriminate.
Qed.
Lemma good_opt_path w lc : good w (opt_path lc) (fun o => forall p, o = Some p -> path_ok p).
Proof.
  intros i Hi. unfold opt_path. pose proof (good_poi w lc i Hi) as H. destruct (path_or_identifier lc i) as [r [p|s]|e m|e m|]; auto.
  - destruct H as [Hr Hp]. split; auto. intros p' [= <-]. exact Hp.
  - split; auto. discriminate.
  - split; auto. discriminate.
Qed.

Section Target.
  Variables (w : str) (lc : N -> bool) (n : nat).
  Lemma goodm_target_named d parse : goodm w d n parse wf_target -> goodm w d n (target_named parse) (fun x => ident (fst x) /\ wf_target (snd x)).
  Proof.
    intros H. unfold target_named.
    apply (goodm_here w d n (fun init => src <-- lift identifier ;; (t <-- mopt (lift (pws (pchar 58)) ;;-- parse) ;;
      match t with Some t => mret (src, t) | None => lift (pmap (fun t => (src, t)) (verify_name init src)) end))).
    intros init Hinit. eapply goodm_bind; [apply goodm_lift, good_ident|]. intros src Hsrc.
    eapply goodm_bind; [apply goodm_opt; mseq; exact H|].
    intros [t|] Ht; [apply goodm_ret; cbn; auto|]. apply goodm_lift. eapply good_map; [apply good_verify_name; auto|]. cbn. auto.
  Qed.
  Lemma goodm_close {A} d c (a : A) (Q : A -> Prop) : Q a ->
    goodm w d n (lift (opt (pws (pchar 44))) ;;-- (lift (pws (cut (pchar c))) ;;-- mret a)) Q.
  Proof. intros H. mseq. apply goodm_seq; [apply goodm_lift_true, good_pws, good_cut; auto with good|]. now apply goodm_ret. Qed.
  Lemma goodm_parse_one d parse : goodm w d n parse wf_target -> goodm w d n (target_parse_one lc parse) wf_target.
  Proof.
    intros H. unfold target_parse_one.
    eapply goodm_bind; [apply goodm_lift, good_opt, good_target_lit|]. intros [l|] Hl; [apply goodm_ret; auto|].
    eapply goodm_bind; [mtrue|]. intros [|] _.
    - eapply goodm_bind; [mtrue|]. intros [|] _; [apply goodm_ret; intros; constructor; auto|].
      eapply goodm_bind; [exact H|]. intros t Ht. eapply goodm_bind; [mtrue|]. intros [|] _; [apply goodm_ret; auto|].
      apply goodm_cut. eapply goodm_bind; [apply goodm_many0; mseq; exact H|].
      intros rest Hrest. apply goodm_close. constructor; auto.
    - eapply goodm_bind; [apply goodm_lift, good_opt_path|]. intros [p|] Hp.
      + specialize (Hp p eq_refl). apply (goodb_here w d n (fun before_with => lift (opt (pws (keyword (lit "with")))) ;;--
               (unnamed <-- lift (opt_char 40) ;;
                if unnamed : bool then
                  lift (pmap (fun _ => TTuple p []) (pchar 41)) <||>
                  (l <-- mcut (mseparated_list1 (pws (pchar 44)) parse) ;;
                   (lift (opt (pws (pchar 44))) ;;-- (lift (pws (cut (pchar 41))) ;;-- mret (TTuple p l))))
                else
                  named <-- lift (opt_char 123) ;;
                  if named : bool then
                    lift (pmap (fun _ => TStruct p []) (pchar 125)) <||>
                    (l <-- mcut (mseparated_list1 (pws (pchar 44)) (target_named parse)) ;;
                     (lift (opt (pws (pchar 44))) ;;-- (lift (pws (cut (pchar 125))) ;;-- mret (TStruct p l))))
                  else fun s _ => (POk before_with (TPath p), s)))).
        intros b Hb. eapply goodb_bind; [apply goodb_of; auto; mtrue|]. intros _ _.
        eapply goodb_bind; [apply goodb_of; auto; mtrue|]. intros [|] _.
        * apply goodb_of; auto. apply goodm_or.
          -- apply goodm_lift. eapply good_map; [apply good_pchar|]. intros _ _. constructor; auto.
          -- eapply goodm_bind; [apply goodm_cut, goodm_sep1; [auto with good|exact H]|]. intros l [_ Hl']. apply goodm_close. constructor; auto.
        * eapply goodb_bind; [apply goodb_of; auto; mtrue|]. intros [|] _.
          -- apply goodb_of; auto. apply goodm_or.
             ++ apply goodm_lift. eapply good_map; [apply good_pchar|]. intros _ _. constructor; auto.
             ++ eapply goodm_bind; [apply goodm_cut, goodm_sep1; [auto with good|apply goodm_target_named, H]|]. intros l [_ Hl']. apply goodm_close. constructor; auto.
          -- apply goodb_back. now constructor.
      + apply (goodm_here w d n (fun i => name <-- lift identifier ;; lift (verify_name i name))). intros i Hi.
        eapply goodm_bind; [apply goodm_lift, good_ident|]. intros name Hn. apply goodm_lift. now apply good_verify_name.
  Qed.
  Lemma or_chain_wf l : l <> [] /\ Forall wf_target l -> wf_target (or_chain l).
  Proof.
    intros [Hl H]. destruct l as [|a [|b l]]; [congruence| |]; cbn.
    - now inversion H.
    - constructor; auto. cbn. lia.
  Qed.
  Lemma goodm_target d : goodm w d n (target_parse lc d) wf_target.
  Proof.
    induction d as [|d IH]; cbn [target_parse]; (eapply goodm_map; [apply goodm_sep1; [apply good_pws; auto with good|]|apply or_chain_wf]);
      intros s i Hi Hd Hn; unfold st_nest; destruct (Nat.leb_spec MAX_DEPTH (level s)) as [E|E].
    - repeat split; auto.
    - lia.
    - repeat split; auto.
    - pose proof (goodm_parse_one d _ IH {| level := S (level s); loop_depth := loop_depth s |} i Hi ltac:(cbn [level]; lia) Hn) as H.
      destruct (target_parse_one _ _ _ _) as [[r t|e m|e m|] s2]; destruct H as (H1 & H2 & H3); cbn [fst snd level loop_depth] in *; unfold st_leave, goodr; cbn [fst snd].
      2,3,4: repeat split; auto; lia.
      destruct (level s2) as [|l]; [lia|]. cbn. repeat split; auto; try tauto. lia.
  Qed.
  Lemma goodm_tparse d : goodm w d n (tparse lc) wf_target.
  Proof. apply goodm_max, goodm_target. Qed.
End Target.

(** ** Text, comments, raw blocks *)
Lemma blank_ws s : Forall (fun c => is_ws c = true) s -> blank s.
Proof. apply Forall_impl. intros c. unfold is_ws. lia. Qed.
Lemma last_opt_app {A} (l : list A) x : last_opt l = Some x -> exists t, l = t ++ [x].
Proof.
  induction l as [|a l IH]; cbn; try discriminate. destruct l as [|b l].
  - intros [= ->]. now exists [].
  - intros H. destruct (IH H) as [t ->]. now exists (a :: t).
Qed.
Lemma wf_split s : wf_literal (split_ws_parts s).
Proof.
  pose proof (split_correct s) as (H1 & H2 & H3 & H4 & H5 & H6). set (l := split_ws_parts s) in *. unfold wf_literal. repeat split.
  - now apply blank_ws.
  - now apply blank_ws.
  - exact H4.
  - destruct (lval l) as [|c t] eqn:E; auto. intros Hb. specialize (H5 c t eq_refl). apply Forall_inv in Hb. revert H5. unfold is_ws. lia.
  - destruct (last_opt (lval l)) as [c|] eqn:E; auto. apply last_opt_app in E. destruct E as [t E]. intros Hb. specialize (H6 c t E).
    apply Forall_inv in Hb. revert H6. unfold is_ws. lia.
Qed.

Definition tags_nonempty (sy : syntax) : Prop :=
  block_start sy <> [] /\ block_end sy <> [] /\ expr_start sy <> [] /\ expr_end sy <> [] /\ comment_start sy <> [] /\ comment_end sy <> [].

Section Node.
  Variables (lc : N -> bool) (dbg : str -> str) (sy : syntax).
  Hypothesis Hsy : tags_nonempty sy.
  Variable w : str.

  Lemma good_block_start : good w (block_start_ sy) (fun _ => True).
  Proof. apply good_tag_true. Qed.
  Lemma good_block_end : good w (block_end_ sy) (fun _ => True).
  Proof. apply good_tag_true. Qed.
  Hint Resolve good_block_start good_block_end : good.

  Lemma good_lit_parse : good w (lit_parse sy) wf_literal.
  Proof.
    intros i Hi. unfold lit_parse. destruct i as [|c i]; [auto|]. set (j := c :: i) in *.
    assert (G : good w (skip_till (tag (block_start sy) <|> tag (comment_start sy) <|> tag (expr_start sy))) (fun _ => True))
      by (eapply good_true, good_skip_till; good_true).
    specialize (G j Hi). destruct (skip_till _ j) as [r x|e m|e m|]; auto.
    - destruct G as [Hr _]. destruct (before j r) as [|y t]; [eapply suffix_trans; eauto|]. split; auto. apply wf_split.
    - split; auto. apply wf_split.
  Qed.
  Lemma good_comment_tag v : good v (comment_tag sy) (fun _ => True).
  Proof. unfold comment_tag. good_true. Qed.
  Lemma skip_till_shrinks {A} (p : P A) i r j a : shrinks p -> skip_till p i = POk r (j, a) -> (length j < length i)%nat.
  Proof.
    intros H. induction i as [|c i IH]; cbn.
    - destruct (p []) as [r' a'|e m|e m|] eqn:E; try discriminate. intros [= <- <- <-]. now apply H in E.
    - destruct (p (c :: i)) as [r' a'|e m|e m|] eqn:E; try discriminate.
      + intros [= <- <- <-]. now apply H in E.
      + intros E2. specialize (IH E2). lia.
  Qed.
  Lemma skip_till_after {A} (p : P A) (Q : A -> Prop) i r j a : (forall v, good v p Q) -> skip_till p i = POk r (j, a) -> suffix j r /\ suffix j i /\ Q a.
  Proof.
    intros H. induction i as [|c i IH]; cbn.
    - destruct (p []) as [r' a'|e m|e m|] eqn:E; try discriminate. intros [= <- <- <-]. apply (good_suffix p Q) in E; tauto.
    - destruct (p (c :: i)) as [r' a'|e m|e m|] eqn:E; try discriminate.
      + intros [= <- <- <-]. apply (good_suffix p Q) in E; tauto.
      + intros E2. destruct (IH E2) as (H1 & H2 & H3). auto.
  Qed.
  Lemma good_comment_content n depth i : suffix i w -> (length i < n)%nat ->
    match comment_content dbg sy n depth i with
    | POk r a => suffix r i | PErr e _ | PFail e _ => suffix e w | PStuck => False end.
  Proof.
    destruct Hsy as (_ & _ & _ & _ & Hs & He).
    revert depth i. induction n as [|n IH]; intros depth i Hi Hn; [lia|]. cbn [comment_content].
    pose proof (good_skip_till w (comment_tag sy) _ (good_comment_tag w) i Hi) as G.
    assert (Sh : shrinks (comment_tag sy)) by (unfold comment_tag; apply shrinks_or; apply shrinks_map, shrinks_tag; assumption).
    destruct (skip_till (comment_tag sy) i) as [r [j b]|e m|e m|] eqn:E; auto.
    pose proof (skip_till_shrinks _ _ _ _ _ Sh E) as L. destruct (skip_till_after _ _ _ _ _ _ good_comment_tag E) as (_ & Hj & _).
    assert (Hjw : suffix j w) by (eapply suffix_trans; eauto).
    destruct b; [|destruct depth as [|depth]; [exact Hj|]].
    - specialize (IH (S depth) j Hjw ltac:(lia)). destruct (comment_content _ _ n _ _); auto. eapply suffix_trans; eauto.
    - specialize (IH depth j Hjw ltac:(lia)). destruct (comment_content _ _ n _ _); auto. eapply suffix_trans; eauto.
  Qed.
  Lemma good_comment_parse : good w (comment_parse dbg sy) (fun _ => True).
  Proof.
    unfold comment_parse. eapply good_bind with (Q := fun _ => True); [good_true|]. intros h _. eapply good_bind with (Q := fun _ => True).
    - apply good_recognize, good_cut. intros i Hi. pose proof (good_comment_content (S (length i)) 0 i Hi ltac:(lia)) as H.
      destruct (comment_content _ _ _ _ _); auto.
    - intros c _. apply good_ret. exact I.
  Qed.
  Lemma good_endraw v : good v (endraw sy) (fun _ => True).
  Proof.
    unfold endraw. apply good_seq; [apply good_tag_true|]. eapply good_bind; [apply good_ows|]. intros w1 _.
    apply good_seq; [auto with good|]. eapply good_bind; [apply good_ows|]. intros w2 _. apply good_seq; [apply good_peek, good_tag_true|].
    apply good_ret. exact I.
  Qed.
  Lemma good_raw b : good w (raw_parse sy) (wf_node b).
  Proof.
    unfold raw_parse. eapply good_bind; [apply good_ows|]. intros w1 _. apply good_seq; [auto with good|]. apply good_cut.
    eapply good_bind; [apply good_ows|]. intros w2 _. apply good_seq; [auto with good|].
    intros i Hi. unfold pbind, consumed. pose proof (good_skip_till w (endraw sy) _ (good_endraw w) i Hi) as G.
    destruct (skip_till (endraw sy) i) as [r [j [w3 w4]]|e m|e m|] eqn:E; auto.
    destruct (skip_till_after _ _ _ _ _ _ good_endraw E) as (_ & Hj & _). split; auto. constructor. apply wf_split.
  Qed.

  (** ** Nodes without a body *)
  Lemma goodm_eparse d n : goodm w d n (eparse lc) wf_expr.
  Proof. apply goodm_with_level. intros l. apply (pe_good lc _ NtParse). Qed.
  Lemma goodm_eargs_true d n : goodm w d n (eargs lc true) call_args.
  Proof. apply goodm_with_level. intros l. apply (pe_good lc _ (NtArguments true)). Qed.
  Lemma goodm_eargs_false d n : goodm w d n (eargs lc false) (Forall wf_expr).
  Proof. apply goodm_with_level. intros l. apply (pe_good lc _ (NtArguments false)). Qed.
  Lemma good_closing t v : good v (value true (tag t) <|> value false (pws eof)) (fun _ => True).
  Proof. apply good_or; apply good_value; auto with good. apply good_pws; auto with good. Qed.
  Hint Resolve good_closing : good.

  Lemma goodm_expr_node d n b : goodm w d n (expr_node lc dbg sy) (wf_node b).
  Proof.
    unfold expr_node. eapply goodm_bind with (Q := fun x => wf_expr (snd x)).
    - mseq. apply goodm_cut. eapply goodm_bind; [mtrue|]. intros h _. eapply goodm_bind; [apply goodm_ws, goodm_eparse|]. intros e He.
      now apply goodm_ret.
    - intros [h e] He. eapply goodm_bind with (Q := fun _ => True).
      + mtrue.
      + intros [w2 [|]] _; [apply goodm_ret; now constructor|]. apply goodm_lift. intros i Hi. exact Hi.
  Qed.
  Lemma goodm_brk d n kw mk : (forall h, wf_node true (mk h)) -> goodm w d n (brk kw mk) (wf_node (Nat.ltb 0 n)).
  Proof.
    intros Hk s i Hi Hd Hn. unfold brk.
    assert (G : good w (w1 <- ows ;; (pws (keyword kw) ;;; (w2 <- ows ;; pret {| ws_l := w1; ws_r := w2 |}))) (fun _ => True)) by good_true.
    specialize (G i Hi). destruct (pbind ows _ i) as [r a|e m|e m|]; try solve [repeat split; auto].
    destruct (loop_depth s) as [|k] eqn:E; [subst n; repeat split; cbn; auto|]. subst n. split; [cbn; lia|]. split; [exact E|]. cbn. split; [tauto|apply Hk].
  Qed.
  Lemma goodm_call d n b : goodm w d n (call_parse lc) (wf_node b).
  Proof.
    unfold call_parse. eapply goodm_bind; [mtrue|]. intros w1 _. mseq. apply goodm_cut.
    eapply goodm_bind with (Q := fun o => match o with Some s => ident s | None => True end).
    - apply goodm_lift, good_opt. eapply good_bind; [apply good_pws, good_ident|]. intros m Hm.
      apply good_seq; [apply good_pws; auto with good|]. now apply good_ret.
    - intros sc Hsc. eapply goodm_bind; [apply goodm_lift, good_pws, good_ident|]. intros name Hname.
      eapply goodm_bind; [apply goodm_opt, goodm_ws, goodm_eargs_true|]. intros args Ha. eapply goodm_bind; [mtrue|]. intros w2 _.
      apply goodm_ret. constructor; auto; [intros s ->; exact Hsc|]. destruct args; [auto|]. exists [], []. repeat split; auto. constructor.
  Qed.
  Lemma good_let_set v : good v let_set (fun _ => True).
  Proof. unfold let_set. good_true. Qed.
  Lemma good_pws_let_set v : good v (pws let_set) (fun _ => True).
  Proof. apply good_pws, good_let_set. Qed.
  Hint Resolve good_pws_let_set : good.
  Lemma goodm_let d n b : goodm w d n (let_parse lc) (wf_node b).
  Proof.
    unfold let_parse. eapply goodm_bind; [mtrue|]. intros w1 _. mseq. apply goodm_cut.
    eapply goodm_bind; [apply goodm_ws, goodm_tparse|]. intros var Hv. eapply goodm_bind; [apply goodm_opt; mseq; apply goodm_ws, goodm_eparse|].
    intros val Hval. eapply goodm_bind; [mtrue|]. intros w2 _. apply goodm_ret. now constructor.
  Qed.
  Lemma goodm_parse_cond d n : goodm w d n (parse_cond lc) wf_test.
  Proof.
    unfold parse_cond. eapply goodm_bind.
    - apply goodm_opt. mseq. eapply goodm_bind; [apply goodm_ws, goodm_tparse|]. intros t Ht. mseq. apply goodm_ret. exact Ht.
    - intros t Ht. eapply goodm_bind; [apply goodm_ws, goodm_eparse|]. intros e He. apply goodm_ret. split; auto.
  Qed.
  Lemma goodm_cond_test d n : goodm w d n (cond_test_parse lc) wf_test.
  Proof. unfold cond_test_parse. mseq. apply goodm_cut, goodm_parse_cond. Qed.
  Lemma good_extends b : good w extends_parse (wf_node b).
  Proof.
    apply (good_here w (fun start => w1 <- ows ;; (pws (keyword (lit "extends")) ;;;
      ('(p, w2) <- cut (p <- pws str_lit ;; (w2 <- ows ;; pret (p, w2))) ;;
       match w1, w2 with
       | None, None => pret (NExtends p)
       | _, _ => fun _ => PFail start (Some (lit "whitespace control is not allowed on `extends`"))
       end)))).
    intros start Hs. eapply good_bind; [apply good_ows|]. intros w1 _. apply good_seq; [auto with good|].
    eapply good_bind with (Q := fun x => quoted 34 (fst x)).
    - apply good_cut. eapply good_bind; [apply good_pws, good_str_lit|]. intros p Hp. eapply good_bind; [apply good_ows|]. intros w2 _. now apply good_ret.
    - intros [p w2] Hp. destruct w1; [now apply good_fail|]. destruct w2; [now apply good_fail|]. apply good_ret. now constructor.
  Qed.
  Lemma good_include b : good w include_parse (wf_node b).
  Proof.
    unfold include_parse. eapply good_bind; [apply good_ows|]. intros w1 _. apply good_seq; [auto with good|]. apply good_cut.
    eapply good_bind; [apply good_pws, good_str_lit|]. intros p Hp. eapply good_bind; [apply good_ows|]. intros w2 _. apply good_ret. now constructor.
  Qed.
  Lemma good_import b : good w import_parse (wf_node b).
  Proof.
    unfold import_parse. eapply good_bind; [apply good_ows|]. intros w1 _. apply good_seq; [auto with good|]. apply good_cut.
    eapply good_bind; [apply good_pws, good_str_lit|]. intros p Hp. apply good_seq; [auto with good|]. apply good_cut.
    eapply good_bind; [apply good_pws, good_ident|]. intros sc Hsc. eapply good_bind; [apply good_ows|]. intros w2 _. apply good_ret. now constructor.
  Qed.
  Lemma good_macro_parameters : good w macro_parameters (Forall ident).
  Proof.
    unfold macro_parameters. apply good_seq; [auto with good|]. eapply good_bind; [apply good_separated_list0; [auto with good|apply good_pws, good_ident]|].
    intros l Hl. apply good_seq; [good_true|]. apply good_seq; [auto with good|]. now apply good_ret.
  Qed.
  Lemma good_end_name name kind : good w (end_name name kind) (fun _ => True).
  Proof.
    apply (good_here w (fun before => n <- pws identifier ;; check_end_name before name n kind)). intros start Hs.
    eapply good_bind; [apply good_pws, good_ident|]. intros m Hm i Hi. unfold check_end_name. destruct (str_eqb name m); auto.
  Qed.
  Hint Resolve good_end_name : good.

  (** ** Nodes with a body *)
  Section Body.
    Variables (d : nat) (many : M (list node)).
    Hypothesis Hmany : forall n, goodm w d n many (Forall (wf_node (Nat.ltb 0 n))).
    Variable n : nat.
    Notation b := (Nat.ltb 0 n).
    Lemma goodm_when_else : goodm w d n (when_else sy many) (wf_when b).
    Proof.
      unfold when_else. mseq. eapply goodm_bind; [mtrue|]. intros w1 _. mseq. apply goodm_cut. eapply goodm_bind; [mtrue|]. intros w2 _. mseq.
      eapply goodm_bind; [apply goodm_cut, Hmany|]. intros ns Hns. apply goodm_ret. constructor; auto. constructor.
      - exists 95, []. repeat split; auto. unfold ident_start. lia.
      - intros [H|[H|[]]]; discriminate.
    Qed.
    Lemma goodm_when_when : goodm w d n (when_when lc sy many) (wf_when b).
    Proof.
      unfold when_when. mseq. eapply goodm_bind; [mtrue|]. intros w1 _. mseq. apply goodm_cut. eapply goodm_bind; [apply goodm_ws, goodm_tparse|]. intros t Ht.
      eapply goodm_bind; [mtrue|]. intros w2 _. mseq. eapply goodm_bind; [apply goodm_cut, Hmany|]. intros ns Hns. apply goodm_ret. constructor; auto.
    Qed.
    Lemma goodm_cond_parse : goodm w d n (cond_parse lc sy many) (wf_cond b).
    Proof.
      unfold cond_parse. mseq. eapply goodm_bind; [mtrue|]. intros w1 _.
      eapply goodm_bind with (Q := fun o => forall t, o = Some t -> wf_test t).
      - apply goodm_or; mseq; [apply goodm_opt, goodm_cond_test|]. apply goodm_cut. eapply goodm_map; [apply goodm_parse_cond|]. intros a Ha t [= <-]. exact Ha.
      - intros c Hc. eapply goodm_bind; [mtrue|]. intros w2 _. mseq. eapply goodm_bind; [apply goodm_cut, Hmany|]. intros ns Hns.
        apply goodm_ret. constructor; auto.
    Qed.
    Lemma goodm_if : goodm w d n (if_parse lc sy many) (wf_node b).
    Proof.
      unfold if_parse. eapply goodm_bind; [mtrue|]. intros w1 _. eapply goodm_bind; [apply goodm_cond_test|]. intros c Hc. apply goodm_cut.
      eapply goodm_bind; [mtrue|]. intros w2 _. mseq. apply goodm_cut. eapply goodm_bind; [apply Hmany|]. intros ns Hns.
      eapply goodm_bind; [apply goodm_many0, goodm_cond_parse|]. intros elifs He. apply goodm_cut. mseq. eapply goodm_bind; [mtrue|]. intros w3 _. mseq.
      eapply goodm_bind; [mtrue|]. intros w4 _. apply goodm_ret. constructor; [eauto|]. constructor; auto. constructor; auto. intros x [= <-]. exact Hc.
    Qed.
    Lemma goodm_in_loop : goodm w d n (in_loop many) (Forall (wf_node true)).
    Proof.
      intros s i Hi Hd Hn. unfold in_loop. pose proof (Hmany (S n) {| level := level s; loop_depth := S (loop_depth s) |} i Hi Hd ltac:(cbn; lia)) as H.
      destruct (many _ i) as [r s']. destruct H as (H1 & H2 & H3). cbn [fst snd level] in *. rewrite H2. repeat split; auto.
    Qed.
    Lemma goodm_else_block : goodm w d n (else_block sy many) (fun x => Forall (wf_node b) (snd (fst x))).
    Proof.
      unfold else_block. mseq. apply goodm_cut. eapply goodm_bind; [mtrue|]. intros w1 _. mseq. eapply goodm_bind; [apply Hmany|]. intros ns Hns. mseq.
      eapply goodm_bind; [mtrue|]. intros w2 _. now apply goodm_ret.
    Qed.
    Lemma goodm_loop : goodm w d n (loop_parse lc sy many) (wf_node b).
    Proof.
      unfold loop_parse. eapply goodm_bind; [mtrue|]. intros w1 _. mseq. apply goodm_cut. eapply goodm_bind; [apply goodm_ws, goodm_tparse|]. intros var Hv. mseq.
      apply goodm_cut. eapply goodm_bind; [apply goodm_ws, goodm_eparse|]. intros it Hit.
      eapply goodm_bind; [apply goodm_opt; mseq; apply goodm_cut, goodm_ws, goodm_eparse|]. intros c Hc. eapply goodm_bind; [mtrue|]. intros w2 _. mseq.
      apply goodm_cut. eapply goodm_bind; [apply goodm_in_loop|]. intros body Hb. apply goodm_cut. mseq. eapply goodm_bind; [mtrue|]. intros w3 _.
      eapply goodm_bind; [apply goodm_opt, goodm_else_block|]. intros els Hels. mseq. eapply goodm_bind; [mtrue|]. intros w4 _.
      destruct els as [[[w5 ns] w6]|]; apply goodm_ret; constructor; auto. apply (Hels _ eq_refl).
    Qed.
    Lemma goodm_macro : goodm w d n (macro_parse sy many) (wf_node b).
    Proof.
      apply (goodm_here w d n (fun i => '(w1, name, params, w2) <--
         lift (w1 <- ows ;; (pws (keyword (lit "macro")) ;;;
                cut (name <- pws identifier ;; (params <- opt (pws macro_parameters) ;; (w2 <- ows ;; (block_end_ sy ;;;
                     pret (w1, name, params, w2))))))) ;;
       if str_eqb name (lit "super") then fun s _ => (PFail i (Some (lit "'super' is not a valid name for a macro")), s)
       else
         mcut (ns <-- many ;;
           mcut (lift (block_start_ sy) ;;-- (w3 <-- lift ows ;; (lift (pws (keyword (lit "endmacro"))) ;;--
             mcut (lift (opt (end_name name (lit "macro"))) ;;-- (w4 <-- lift ows ;;
               mret (NMacro {| ws_l := w1; ws_r := w2 |} name (match params with Some l => l | None => [] end) ns
                            {| ws_l := w3; ws_r := w4 |}))))))))). intros start Hs.
      eapply goodm_bind with (Q := fun '(w1, name, params, w2) => ident name /\ match params with Some l => Forall ident l | None => True end).
      - apply goodm_lift. eapply good_bind; [apply good_ows|]. intros w1 _. apply good_seq; [auto with good|]. apply good_cut.
        eapply good_bind; [apply good_pws, good_ident|]. intros name Hn. eapply good_bind; [apply good_opt, good_pws, good_macro_parameters|]. intros ps Hps.
        eapply good_bind; [apply good_ows|]. intros w2 _. apply good_seq; [auto with good|]. apply good_ret. auto.
      - intros [[[w1 name] params] w2] [Hn Hp]. destruct (str_eqb name (lit "super")) eqn:E; [now apply goodm_fail|].
        apply goodm_cut. eapply goodm_bind; [apply Hmany|]. intros ns Hns. apply goodm_cut. mseq. eapply goodm_bind; [mtrue|]. intros w3 _. mseq. apply goodm_cut. mseq.
        eapply goodm_bind; [mtrue|]. intros w4 _. apply goodm_ret. constructor; auto.
        + intros ->. rewrite str_eqb_refl in E. discriminate.
        + destruct params; auto.
    Qed.
    Lemma fold_filters extra : Forall (fun x => ident (fst x) /\ match snd x with Some l => Forall wf_expr l | None => True end) extra ->
      forall name args, wf_block_filter name args ->
      let '(f, a) := fold_left (fun '(n, a) '(n2, a2) => (n2, Filter n a :: match a2 with Some l => l | None => [] end)) extra (name, args) in
      wf_block_filter f a.
    Proof.
      induction 1 as [|[n2 a2] extra [H1 H2] H IH]; intros name args Hna; [exact Hna|]. cbn [fold_left]. apply IH. cbn [fst snd] in *.
      apply wbf_next; auto. destruct a2; auto.
    Qed.
    Lemma goodm_filter_block : goodm w d n (filter_block_parse lc sy many) (wf_node b).
    Proof.
      unfold filter_block_parse. eapply goodm_bind; [mtrue|]. intros w1 _. mseq.
      eapply goodm_bind with (Q := fun '(name, params, extra, w2) => ident name /\ (forall l, params = Some l -> Forall wf_expr l) /\
        Forall (fun x => ident (fst x) /\ match snd x with Some l => Forall wf_expr l | None => True end) extra).
      - apply goodm_cut. eapply goodm_bind; [apply goodm_lift, good_pws, good_ident|]. intros name Hn.
        eapply goodm_bind; [apply goodm_opt, goodm_eargs_false|]. intros ps Hps. eapply goodm_bind.
        + apply goodm_with_level. intros l. apply good_many0, good_filter, (pe_good lc _ (NtArguments false)).
        + intros extra He. apply goodm_seq; [apply goodm_lift_true, good_pws, good_ret; exact I|]. eapply goodm_bind; [mtrue|]. intros w2 _. mseq.
          apply goodm_ret. auto.
      - intros [[[name ps] extra] w2] (H1 & H2 & H3). pose proof (fold_filters extra H3 name (match ps with Some l => l | None => [] end)) as F.
        destruct (fold_left _ extra _) as [fname fargs]. assert (Hf : wf_block_filter fname fargs) by (apply F, wbf_one; [auto|destruct ps; auto]).
        apply goodm_cut. eapply goodm_bind; [apply Hmany|]. intros ns Hns. apply goodm_cut. mseq. eapply goodm_bind; [mtrue|]. intros w3 _. mseq.
        eapply goodm_bind; [mtrue|]. intros w4 _. apply goodm_ret. constructor; auto.
    Qed.
    Lemma goodm_match : goodm w d n (match_parse lc dbg sy many) (wf_node b).
    Proof.
      unfold match_parse. eapply goodm_bind; [mtrue|]. intros w1 _. mseq. apply goodm_cut. eapply goodm_bind; [apply goodm_ws, goodm_eparse|]. intros e He.
      eapply goodm_bind; [mtrue|]. intros w2 _. mseq. apply goodm_cut.
      apply goodm_seq; [apply goodm_lift_true, good_pws, good_many0_true, good_pws, good_value; [apply good_comment_parse|exact I]|].
      eapply goodm_bind; [apply goodm_many1, goodm_when_when|]. intros arms (a & arms' & -> & Ha). apply goodm_cut.
      eapply goodm_bind; [apply goodm_opt, goodm_when_else|]. intros els Hels. apply goodm_cut.
      apply goodm_seq; [apply goodm_lift_true, good_pws; auto with good|]. eapply goodm_bind; [mtrue|]. intros w3 _. mseq. eapply goodm_bind; [mtrue|]. intros w4 _.
      apply goodm_ret. cbn [app]. constructor; auto. inversion Ha; subst. constructor; auto. apply Forall_app. split; auto. destruct els; auto.
    Qed.
    Lemma goodm_blockdef : goodm w d n (blockdef_parse sy many) (wf_node b).
    Proof.
      unfold blockdef_parse. eapply goodm_bind; [mtrue|]. intros w1 _. mseq. eapply goodm_bind with (Q := fun x => ident (fst x)).
      - apply goodm_cut, goodm_lift. eapply good_bind; [apply good_pws, good_ident|]. intros name Hn. eapply good_bind; [apply good_ows|]. intros w2 _.
        apply good_seq; [auto with good|]. now apply good_ret.
      - intros [name w2] Hn. apply goodm_cut. eapply goodm_bind; [apply Hmany|]. intros ns Hns. apply goodm_cut. mseq. eapply goodm_bind; [mtrue|]. intros w3 _.
        mseq. apply goodm_cut. mseq. eapply goodm_bind; [mtrue|]. intros w4 _. apply goodm_ret. constructor; auto.
    Qed.
    Lemma goodm_block_kind t p : block_kind lc dbg sy many t = Some p -> goodm w d n p (wf_node b).
    Proof.
      unfold block_kind. repeat match goal with |- (if ?c then _ else _) = _ -> _ => destruct c; [intros [= <-]|] end; try discriminate.
      - apply goodm_call.
      - apply goodm_let.
      - apply goodm_if.
      - apply goodm_loop.
      - apply goodm_match.
      - apply goodm_lift, good_extends.
      - apply goodm_lift, good_include.
      - apply goodm_lift, good_import.
      - apply goodm_blockdef.
      - apply goodm_macro.
      - apply goodm_lift, good_raw.
      - apply goodm_brk. constructor.
      - apply goodm_brk. constructor.
      - apply goodm_filter_block.
    Qed.
  End Body.

  Lemma good_block_tag v : good v (block_tag sy) (fun _ => True).
  Proof. unfold block_tag. apply good_seq; [apply good_tag_true|]. apply good_peek. apply good_seq; [|auto with good]. apply good_seq; auto with good. Qed.
  Lemma good_block_close b nd : wf_node b nd -> good w (block_close dbg sy nd) (wf_node b).
  Proof.
    intros H. unfold block_close. eapply good_bind with (Q := fun _ => True); [apply good_cut; apply good_closing|]. intros [|] _; [now apply good_ret|].
    intros i Hi. exact Hi.
  Qed.
  Lemma goodm_node_parse d n many :
    match many with
    | Some m => exists d', d = S d' /\ forall k, goodm w d' k m (Forall (wf_node (Nat.ltb 0 k)))
    | None => d = O
    end -> goodm w d n (node_parse lc dbg sy many) (wf_node (Nat.ltb 0 n)).
  Proof.
    intros Hm s i Hi Hd Hn. unfold node_parse. pose proof (good_block_tag w i Hi) as G.
    destruct (block_tag sy i) as [j t|e m|e m|]; try solve [repeat split; auto]. destruct G as [Hj _].
    assert (Hjw : suffix j w) by (eapply suffix_trans; eauto).
    destruct (block_kind _ _ _ _ t) as [f|] eqn:E; [|repeat split; auto]. unfold st_nest.
    destruct (Nat.leb_spec MAX_DEPTH (level s)) as [L|L]; [repeat split; auto|].
    destruct many as [m|]; [|lia]. destruct Hm as (d' & -> & Hm).
    pose proof (goodm_block_kind d' m Hm n t f E {| level := S (level s); loop_depth := loop_depth s |} j Hjw ltac:(cbn [level]; lia) Hn) as H.
    destruct (f _ j) as [r s2]. destruct H as (H1 & H2 & H3). cbn [fst snd level loop_depth] in *. unfold st_leave. cbn [fst snd].
    destruct (level s2) as [|l]; [lia|]. destruct r as [r nd|e m'|e m'|].
    - destruct H3 as [H3 H4]. assert (Hrw : suffix r w) by (eapply suffix_trans; eauto). pose proof (good_block_close _ nd H4 r Hrw) as K.
      split; [cbn; lia|]. split; [exact H2|]. cbn [fst]. destruct (block_close dbg sy nd r); try exact K. destruct K as [K1 K2]. split; auto.
      exact (suffix_trans _ _ _ K1 (suffix_trans _ _ _ H3 Hj)).
    - split; [cbn; lia|]. split; auto.
    - split; [cbn; lia|]. split; auto.
    - destruct H3.
  Qed.
  Lemma goodm_node_one d n many :
    match many with
    | Some m => exists d', d = S d' /\ forall k, goodm w d' k m (Forall (wf_node (Nat.ltb 0 k)))
    | None => d = O
    end -> goodm w d n (node_one lc dbg sy many) (wf_node (Nat.ltb 0 n)).
  Proof.
    intros Hm. unfold node_one.
    apply goodm_or; [apply goodm_lift; eapply good_map; [apply good_lit_parse|intros; now constructor]|].
    apply goodm_or; [apply goodm_lift; eapply good_map; [apply good_comment_parse|intros [h c] _; now constructor]|].
    apply goodm_or; [apply goodm_expr_node|]. now apply goodm_node_parse.
  Qed.
  Theorem goodm_node_many d n : goodm w d n (node_many lc dbg sy d) (Forall (wf_node (Nat.ltb 0 n))).
  Proof.
    revert n. induction d as [|d IH]; intros n; cbn [node_many]; apply goodm_many0, goodm_node_one; eauto.
  Qed.
  Theorem good_parse_template : match parse_template lc dbg sy w with
    | POk r l => r = [] /\ Forall (wf_node false) l
    | PErr e _ | PFail e _ => suffix e w
    | PStuck => False
    end.
  Proof.
    unfold parse_template. unfold mbind at 1. pose proof (goodm_node_many MAX_DEPTH 0 state0 w (suffix_refl w) ltac:(cbn; lia) eq_refl) as H.
    destruct (node_many lc dbg sy MAX_DEPTH state0 w) as [[r l|e m|e m|] s']; destruct H as (_ & _ & H); cbn [fst] in *; auto.
    destruct H as [Hr Hl]. unfold mbind, lift, mret. cbn. unfold cut, eof. destruct r as [|c r]; cbn; auto.
  Qed.
End Node.
