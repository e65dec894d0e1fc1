(** * Comments. *)
From Verif Require Import Base Config ConfigFacts Nom Ws Ast Lex ParseExpr ParseNode NomFacts LexFacts LitSpec LitFacts ParseSpec TreeSpec ExprFacts WsFacts NodeFacts TplFacts TextFacts.
From Coq Require Import ZifyBool ZifyNat ZifyN.
Local Open Scope N_scope.

Section Comment.
  Variables (lc : N -> bool) (dbg : str -> str) (sy : syntax).
  Hypothesis Hsy : syntax_valid sy.
  Let Hne := valid_nonempty sy Hsy.
  Notation cs := (comment_start sy).
  Notation ce := (comment_end sy).
  Lemma cs_ne : cs <> [].
  Proof. destruct Hne as (H1 & H2 & H3 & H4 & H5 & H6). exact H5. Qed.
  Lemma ce_ne : ce <> [].
  Proof. destruct Hne as (H1 & H2 & H3 & H4 & H5 & H6). exact H6. Qed.
  Lemma app_hd (t s : str) : t <> [] -> exists c u, t ++ s = c :: u /\ (length s <= length u)%nat.
  Proof. destruct t as [|c t]; [congruence|]. intros _. exists c, (t ++ s). split; [reflexivity|]. rewrite app_length. lia. Qed.
  Lemma skip_now {A} (p : P A) i r a : p i = POk r a -> skip_till p i = POk i (r, a).
  Proof. intros H. destruct i; cbn; rewrite H; reflexivity. Qed.
  Lemma tag_open s : comment_tag sy (cs ++ s) = POk s true.
  Proof. unfold comment_tag, por, value, pmap. now rewrite tag_exact. Qed.
  Lemma tag_close s : (forall x, ce ++ s <> cs ++ x) -> comment_tag sy (ce ++ s) = POk s false.
  Proof. intros H. unfold comment_tag, por, value, pmap. rewrite tag_fail by exact H. now rewrite tag_exact. Qed.
  Lemma tag_char i : (forall x, i <> cs ++ x) -> (forall x, i <> ce ++ x) -> comment_tag sy i = PErr i None.
  Proof. intros H1 H2. unfold comment_tag, por, value, pmap. rewrite !tag_fail by assumption. reflexivity. Qed.
  Lemma tag_inv' i : (exists x, i = cs ++ x /\ comment_tag sy i = POk x true) \/
    ((forall x, i <> cs ++ x) /\ exists x, i = ce ++ x /\ comment_tag sy i = POk x false) \/
    ((forall x, i <> cs ++ x) /\ (forall x, i <> ce ++ x) /\ comment_tag sy i = PErr i None).
  Proof.
    destruct (tag_cases cs i) as [(x & -> & _)|[H1 _]]; [left; exists x; split; [reflexivity|apply tag_open]|right].
    destruct (tag_cases ce i) as [(x & -> & _)|[H2 _]]; [left; split; [exact H1|exists x; split; [reflexivity|now apply tag_close]]|right].
    repeat split; auto. now apply tag_char.
  Qed.
  Lemma closes_content d i r : closes cs ce d i r -> forall n, (length i < n)%nat -> comment_content dbg sy n d i = POk r tt.
  Proof.
    induction 1 as [d s r H IH|d s r Hc H IH|s Hc|d c s r H1 H2 H IH]; intros n Hn; (destruct n as [|n]; [lia|]); cbn [comment_content].
    - rewrite (skip_now _ _ _ _ (tag_open s)). apply IH. pose proof cs_ne. rewrite app_length in Hn. destruct cs; [congruence|cbn in Hn; lia].
    - rewrite (skip_now _ _ _ _ (tag_close s Hc)). apply IH. pose proof ce_ne. rewrite app_length in Hn. destruct ce; [congruence|cbn in Hn; lia].
    - rewrite (skip_now _ _ _ _ (tag_close s Hc)). reflexivity.
    - cbn [skip_till]. rewrite tag_char by assumption. specialize (IH (S n) ltac:(cbn in Hn; lia)). cbn [comment_content] in IH.
      destruct (skip_till (comment_tag sy) s); try discriminate; exact IH.
  Qed.
  Lemma content_cases n : forall d i, (length i < n)%nat ->
    (exists r, comment_content dbg sy n d i = POk r tt /\ closes cs ce d i r) \/
    (exists e, comment_content dbg sy n d i = PFail e (Some (unclosed dbg (lit "comment") ce))).
  Proof.
    induction n as [|n IH]; intros d i Hn; [lia|]. revert Hn. induction i as [|c i IHi]; intros Hn.
    - right. cbn [comment_content skip_till]. rewrite tag_char; [eauto| |]; intros x E; [pose proof cs_ne; destruct cs|pose proof ce_ne; destruct ce]; congruence || discriminate.
    - destruct (tag_inv' (c :: i)) as [(x & E & T)|[(Hc & x & E & T)|(Hc & He & T)]].
      + cbn [comment_content]. rewrite (skip_now _ _ _ _ T). assert (L : (length x < n)%nat).
        { pose proof cs_ne. rewrite E, app_length in Hn. destruct cs; [congruence|cbn in Hn; lia]. }
        rewrite E. destruct (IH (S d) x L) as [(r & -> & Hr)|(e & ->)]; [left|right]; eauto. exists r. split; [reflexivity|]. now constructor.
      + cbn [comment_content]. rewrite (skip_now _ _ _ _ T). assert (L : (length x < n)%nat).
        { pose proof ce_ne. rewrite E, app_length in Hn. destruct ce; [congruence|cbn in Hn; lia]. }
        rewrite E in *. destruct d as [|d]; [left; exists x; split; [reflexivity|now constructor]|].
        destruct (IH d x L) as [(r & -> & Hr)|(e & ->)]; [left|right]; eauto. exists r. split; [reflexivity|]. now constructor.
      + cbn [comment_content skip_till]. rewrite T. destruct (IHi ltac:(cbn in Hn; lia)) as [(r & H & Hr)|(e & H)]; cbn [comment_content] in H.
        * left. exists r. split; [|now constructor]. destruct (skip_till (comment_tag sy) i); try discriminate; exact H.
        * right. destruct (skip_till (comment_tag sy) i); eauto.
  Qed.
  Lemma closes_suffix d i r : closes cs ce d i r -> exists t, i = t ++ ce ++ r.
  Proof.
    induction 1 as [d s r H [t ->]|d s r Hc H [t ->]|s Hc|d c s r H1 H2 H [t ->]].
    - exists (cs ++ t). now rewrite <- app_assoc.
    - exists (ce ++ t). now rewrite <- app_assoc.
    - exists []. reflexivity.
    - exists (c :: t). reflexivity.
  Qed.
  (** ** The node *)
  Lemma node_one_comment many s i : (exists x, i = cs ++ x) ->
    node_one lc dbg sy many s i =
    match comment_parse dbg sy i with
    | POk r (w, c) => (POk r (NComment w c), s)
    | PFail e m => (PFail e m, s)
    | PStuck => (PStuck, s)
    | PErr _ _ => node_one lc dbg sy many s i
    end.
  Proof.
    intros Hi. destruct (comment_parse dbg sy i) as [r [w c]|e m|e m|] eqn:E; try reflexivity;
      unfold node_one, mor, lift, pmap; destruct (lit_stops sy Hsy cs i ltac:(cbn; auto) Hi) as (e' & m' & ->); rewrite E; reflexivity.
  Qed.
  Definition last_mark (t : str) : option handling :=
    match last_opt t with Some c => if c =? 45 then Some Suppress else if c =? 43 then Some Preserve else if c =? 126 then Some Minimize else None | None => None end.
  Lemma strip_suffix_app a b : strip_suffix b (a ++ b) = Some a.
  Proof.
    unfold strip_suffix. rewrite rev_app_distr. assert (H : forall x y, strip_prefix x (x ++ y) = Some y).
    { clear. intros x y. induction x as [|c x IH]; cbn; [now destruct y|now rewrite N.eqb_refl]. }
    rewrite H. now rewrite rev_involutive.
  Qed.
  Lemma nws_app t : comment_nws sy (t ++ ce) = last_mark t.
  Proof. unfold comment_nws. now rewrite strip_suffix_app. Qed.
  Lemma comment_node many s m t r : closes cs ce 0 (t ++ ce ++ r) r -> (m = None -> nohd is_mark (t ++ ce ++ r)) ->
    node_one lc dbg sy many s (cs ++ mark m ++ t ++ ce ++ r) = (POk r (NComment {| ws_l := m; ws_r := last_mark t |} (t ++ ce)), s).
  Proof.
    intros Hc Hm. rewrite node_one_comment by eauto. unfold comment_parse, pbind. rewrite tag_exact, ows_exact by exact Hm.
    unfold recognize, cut. rewrite (closes_content _ _ _ Hc) by lia. rewrite (app_assoc t), before_app, nws_app. reflexivity.
  Qed.
  Lemma comment_unclosed many s m i : (forall r, ~ closes cs ce 0 i r) -> (m = None -> nohd is_mark i) ->
    exists e, node_one lc dbg sy many s (cs ++ mark m ++ i) = (PFail e (Some (unclosed dbg (lit "comment") ce)), s).
  Proof.
    intros Hc Hm. rewrite node_one_comment by eauto. unfold comment_parse, pbind. rewrite tag_exact, ows_exact by exact Hm.
    unfold recognize, cut. destruct (content_cases (S (length i)) 0 i ltac:(lia)) as [(r & _ & H)|(e & ->)]; [destruct (Hc r H)|]. eauto.
  Qed.
  (** ** Trees *)
  Section Tree_ind.
    Variable Q : ctree -> Prop.
    Hypotheses (HT : forall s, Q (CText s)) (HN : forall l, Forall Q l -> Q (CNest l)).
    Fixpoint ctree_ind' (t : ctree) : Q t :=
      match t with
      | CText s => HT s
      | CNest l => HN l ((fix go l := match l return Forall Q l with [] => Forall_nil _ | x :: l' => Forall_cons _ (ctree_ind' x) (go l') end) l)
      end.
  End Tree_ind.
  Lemma tree_closes : hd_error cs <> hd_error ce -> forall t, ctree_ok cs ce t -> forall d s r, closes cs ce d s r -> closes cs ce d (ctree_src cs ce t ++ s) r.
  Proof.
    intros Hh t. induction t as [x|l IH] using ctree_ind'; intros Hok d s r H; cbn [ctree_src ctree_ok] in *.
    - induction Hok as [|c x [H1 H2] _ IHx]; cbn; auto. pose proof cs_ne; pose proof ce_ne. apply cl_char; auto.
      + intros y E. destruct cs as [|c' ?]; [congruence|]. cbn in *. congruence.
      + intros y E. destruct ce as [|c' ?]; [congruence|]. cbn in *. congruence.
    - rewrite <- !app_assoc. constructor. assert (K : closes cs ce (S d) (ce ++ s) r).
      { constructor; auto. intros y E. pose proof cs_ne; pose proof ce_ne. destruct cs, ce; try congruence. cbn in *. congruence. }
      clear H. revert K. generalize (ce ++ s). induction IH as [|t l Ht Hl IHl]; intros u K; cbn in *; auto.
      rewrite <- app_assoc. apply Ht; [tauto|]. apply IHl; [tauto|auto].
  Qed.
  Lemma forest_closes l r : hd_error cs <> hd_error ce -> Forall (ctree_ok cs ce) l -> closes cs ce 0 (concat (map (ctree_src cs ce) l) ++ ce ++ r) r.
  Proof.
    intros Hh H. assert (K : closes cs ce 0 (ce ++ r) r).
    { constructor. intros y E. pose proof cs_ne; pose proof ce_ne. destruct cs, ce; try congruence. cbn in *. congruence. }
    induction H as [|t l Ht Hl IH]; cbn; auto. rewrite <- app_assoc. now apply tree_closes.
  Qed.
  (** ** Whole sources *)
  Theorem comment_parses m t : closes cs ce 0 (t ++ ce) [] -> (m = None -> nohd is_mark (t ++ ce)) ->
    from_str lc dbg sy (cs ++ mark m ++ t ++ ce) = Some (inl [NComment {| ws_l := m; ws_r := last_mark t |} (t ++ ce)]).
  Proof.
    intros H Hm. pose proof (fun many s => comment_node many s m t []) as K. rewrite !app_nil_r in K.
    rewrite (from_str_many lc dbg sy). destruct (app_hd cs (mark m ++ t ++ ce) cs_ne) as (c & u & E & _).
    rewrite (many_cons lc dbg sy _ _ _ _ _ _ _ (K _ state0 H Hm)) by (rewrite E; cbn; lia). rewrite E. cbn [length]. rewrite (many_end lc dbg sy Hsy). reflexivity.
  Qed.
  Theorem comment_rejected m i : (forall r, ~ closes cs ce 0 i r) -> (m = None -> nohd is_mark i) ->
    exists e, from_str lc dbg sy (cs ++ mark m ++ i) = Some (inr e) /\ pe_message e = Some (unclosed dbg (lit "comment") ce).
  Proof.
    intros H Hm. destruct (comment_unclosed (Some (node_many lc dbg sy 127)) state0 m i H Hm) as (e & E).
    unfold from_str, parse_template, mbind at 1.
    change (node_many lc dbg sy MAX_DEPTH state0 ?x) with (mmany0_fuel (S (length x)) (node_one lc dbg sy (Some (node_many lc dbg sy 127))) state0 x).
    cbn [mmany0_fuel]. rewrite E. cbn [fst]. eexists. split; [reflexivity|]. unfold error_report. destruct (last_opt _); reflexivity.
  Qed.
End Comment.
