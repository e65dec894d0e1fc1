(** * Text, raw blocks and comments. *)
From Verif Require Import Base Config ConfigFacts Nom Ws Ast Lex ParseExpr ParseNode NomFacts LexFacts LitSpec LitFacts ParseSpec TreeSpec ExprFacts WsFacts NodeFacts TplFacts.
From Coq Require Import ZifyBool ZifyNat ZifyN.
Local Open Scope N_scope.

(** ** Exact behaviour of the small parsers *)
Definition nohd (f : N -> bool) (s : str) : Prop := match s with [] => True | c :: _ => f c = false end.
Lemma span_exact f a r : Forall (fun c => f c = true) a -> nohd f r -> span f (a ++ r) = (a, r).
Proof.
  induction 1 as [|c a Hc H IH]; intros Hr; cbn.
  - destruct r as [|c r]; auto. cbn in Hr. cbn. now rewrite Hr.
  - rewrite Hc, (IH Hr). reflexivity.
Qed.
Lemma span_nohd f i : nohd f (snd (span f i)).
Proof. induction i as [|c i IH]; cbn; auto. destruct (f c) eqn:E; [destruct (span f i); cbn in *; auto|]. cbn. exact E. Qed.
Lemma tag_exact t r : tag t (t ++ r) = POk r t.
Proof. unfold tag. assert (H : strip_prefix t (t ++ r) = Some r) by (induction t as [|c t IH]; cbn; [now destruct r|now rewrite N.eqb_refl]). now rewrite H. Qed.
Lemma tag_fail t i : (forall x, i <> t ++ x) -> tag t i = PErr i None.
Proof. intros H. unfold tag. destruct (strip_prefix t i) as [r|] eqn:E; auto. apply strip_prefix_Some in E. destruct (H _ E). Qed.
Lemma tag_cases t i : (exists x, i = t ++ x /\ tag t i = POk x t) \/ ((forall x, i <> t ++ x) /\ tag t i = PErr i None).
Proof.
  unfold tag. destruct (strip_prefix t i) as [r|] eqn:E.
  - left. exists r. apply strip_prefix_Some in E. auto.
  - right. split; auto. intros x ->. assert (H : strip_prefix t (t ++ x) = Some x) by (clear; induction t as [|c t IH]; cbn; [now destruct x|now rewrite N.eqb_refl]). congruence.
Qed.
Lemma before_suffix a r : before (a ++ r) r = a.
Proof. apply before_app. Qed.
Lemma blanks_ws b : blanks b -> Forall (fun c => negb (not_ws c) = true) b.
Proof. apply Forall_impl. intros c [<-|[<-|[<-|[<-|[]]]]]; reflexivity. Qed.
Lemma ws_blanks b : Forall (fun c => negb (not_ws c) = true) b -> blanks b.
Proof. apply Forall_impl. intros c. unfold not_ws, is_ws. cbn. lia. Qed.
Lemma skip_blanks_exact b r : blanks b -> nohd is_ws r -> skip_blanks (b ++ r) = POk r b.
Proof.
  intros Hb Hr. unfold skip_blanks, take_till. rewrite span_exact; auto; [now apply blanks_ws|].
  destruct r; auto. cbn in *. unfold not_ws. now rewrite Hr.
Qed.
Lemma skip_blanks_inv i r a : skip_blanks i = POk r a -> i = a ++ r /\ blanks a /\ nohd is_ws r.
Proof.
  unfold skip_blanks, take_till. pose proof (span_app (fun c => negb (not_ws c)) i) as H1. pose proof (span_all (fun c => negb (not_ws c)) i) as H2.
  pose proof (span_nohd (fun c => negb (not_ws c)) i) as H3. destruct (span _ i) as [x y]. cbn [fst snd] in *. intros [= <- <-]. repeat split; auto.
  - now apply ws_blanks.
  - destruct y; auto. cbn in *. unfold not_ws in H3. now rewrite negb_involutive in H3.
Qed.
Lemma pws_exact {A} (p : P A) b i x b' r a : blanks b -> blanks b' -> nohd is_ws i -> nohd is_ws r ->
  i = x ++ b' ++ r -> p i = POk (b' ++ r) a -> pws p (b ++ i) = POk r a.
Proof.
  intros Hb Hb' Hi Hr E Hp. unfold pws, pbind. rewrite skip_blanks_exact by auto. rewrite Hp, skip_blanks_exact; auto.
Qed.
Lemma pws_inv {A} (p : P A) i r a : pws p i = POk r a -> exists b j b', i = b ++ j /\ blanks b /\ nohd is_ws j /\ p j = POk (b' ++ r) a /\ blanks b' /\ nohd is_ws r.
Proof.
  unfold pws. intros H. apply pbind_inv in H. destruct H as (j & b & H1 & H). apply skip_blanks_inv in H1. destruct H1 as (-> & Hb & Hj).
  apply pbind_inv in H. destruct H as (k & a' & H2 & H). apply pbind_inv in H. destruct H as (k2 & b' & H3 & H). injection H as <- <-.
  apply skip_blanks_inv in H3. destruct H3 as (-> & Hb' & Hk). exists b, j, b'. auto 10.
Qed.
Definition is_mark (c : N) : bool := (c =? 43) || (c =? 45) || (c =? 126).
Lemma ows_exact m r : (m = None -> nohd is_mark r) -> ows (mark m ++ r) = POk r m.
Proof.
  intros H. destruct m as [[]|]; try reflexivity. specialize (H eq_refl). destruct r as [|c r]; [reflexivity|]. cbn in H. unfold is_mark in H.
  unfold ows, opt, whitespace, por, value, pmap, pchar, satisfy. cbn [mark app].
  rewrite (N.eqb_sym 43), (N.eqb_sym 45), (N.eqb_sym 126). destruct (c =? 43), (c =? 45), (c =? 126); try discriminate. reflexivity.
Qed.
Lemma ows_inv i r m : ows i = POk r m -> i = mark m ++ r.
Proof.
  unfold ows, opt, whitespace, por, value, pmap, pchar, satisfy. destruct i as [|c i]; [intros [= <- <-]; reflexivity|].
  destruct (N.eqb_spec 43 c) as [<-|]; [intros [= <- <-]; reflexivity|]. destruct (N.eqb_spec 45 c) as [<-|]; [intros [= <- <-]; reflexivity|].
  destruct (N.eqb_spec 126 c) as [<-|]; intros [= <- <-]; reflexivity.
Qed.
Lemma id_start_tail c : id_start c = true -> id_tail c = true.
Proof. unfold id_tail. intros ->. reflexivity. Qed.
Lemma span_span f g i : (forall c, f c = true -> g c = true) -> snd (span g (snd (span f i))) = snd (span g i).
Proof.
  intros H. induction i as [|c i IH]; auto. cbn. destruct (f c) eqn:E.
  - rewrite (H _ E). destruct (span f i) as [x y]. cbn [snd] in *. rewrite IH. destruct (span g i). reflexivity.
  - cbn. destruct (g c); [|reflexivity]. destruct (span g i); reflexivity.
Qed.
Lemma span_nil f i : fst (span f i) = [] -> snd (span f i) = i.
Proof. intros H. pose proof (span_app f i) as K. rewrite H in K. auto. Qed.
Lemma span_ext f g i : (forall c, f c = g c) -> span f i = span g i.
Proof. intros H. induction i as [|c i IH]; auto. cbn. rewrite (H c), IH. reflexivity. Qed.
Lemma identifier_exact a r : a <> [] -> nohd (fun c => negb (id_start c)) a -> Forall (fun c => id_tail c = true) a -> nohd id_tail r ->
  identifier (a ++ r) = POk r a.
Proof.
  intros Ha H0 H1 H2. unfold identifier, recognize, pbind, split_at_position1.
  assert (E : forall f (i : str), span (fun c => negb (negb (f c))) i = span f i) by (intros; apply span_ext; intros; apply negb_involutive).
  rewrite (E id_start (a ++ r)).
  pose proof (span_span id_start id_tail (a ++ r) id_start_tail) as K. rewrite (span_exact id_tail a r H1 H2) in K. cbn [snd] in K.
  destruct a as [|c a]; [congruence|]. cbn in H0. apply negb_false_iff in H0.
  remember (span id_start ((c :: a) ++ r)) as sp eqn:Esp. destruct sp as [x y]. cbn [snd] in K.
  destruct x as [|x0 x]; [exfalso; cbn in Esp; rewrite H0 in Esp; destruct (span id_start (a ++ r)); discriminate|].
  unfold opt. rewrite (E id_tail y). destruct (span id_tail y) as [z t] eqn:Ez. cbn [snd] in K. subst t. destruct z as [|z0 z].
  - pose proof (span_nil id_tail y) as Q. rewrite Ez in Q. cbn in Q. rewrite <- (Q eq_refl). now rewrite before_app.
  - now rewrite before_app.
Qed.
Lemma keyword_exact k r : k <> [] -> nohd (fun c => negb (id_start c)) k -> Forall (fun c => id_tail c = true) k -> nohd id_tail r ->
  keyword k (k ++ r) = POk r k.
Proof. intros. unfold keyword. rewrite identifier_exact by auto. now rewrite str_eqb_refl. Qed.
Lemma keyword_inv k i r a : keyword k i = POk r a -> i = k ++ r /\ a = k.
Proof.
  unfold keyword. destruct (identifier i) as [j v|e m|e m|] eqn:E; try discriminate. destruct (str_eqb k v) eqn:Ek; try discriminate.
  intros [= <- <-]. apply str_eqb_eq in Ek. subst v. apply identifier_spec in E. tauto.
Qed.

Lemma closing_facts be : closing_ok be -> exists c t, be = c :: t /\ id_tail c = false /\ is_ws c = false /\ is_mark c = false.
Proof.
  destruct be as [|c t]; [intros []|]. intros [H1 H2]. exists c, t. split; auto. cbn in H1.
  unfold id_tail, id_start, is_upper, is_lower, is_dec, is_ws, is_mark. lia.
Qed.
(** A tag with one keyword. *)
Definition kw_ok (kw : str) : Prop := kw <> [] /\ nohd (fun c => negb (id_start c)) kw /\ Forall (fun c => id_tail c = true) kw.
Lemma kw_hd kw r f : kw_ok kw -> (forall c, id_start c = true -> f c = false) -> nohd f (kw ++ r).
Proof. intros (H1 & H2 & _) H. destruct kw; [congruence|]. cbn in *. apply H. now apply negb_false_iff in H2. Qed.
Lemma id_not_ws c : id_start c = true -> is_ws c = false.
Proof. unfold id_start, is_upper, is_lower, is_ws. lia. Qed.
Lemma id_not_mark c : id_start c = true -> is_mark c = false.
Proof. unfold id_start, is_upper, is_lower, is_mark. lia. Qed.
Lemma blanks_mark b r : blanks b -> nohd is_mark r -> nohd is_mark (b ++ r).
Proof. intros [|c b' Hc Hb] H; auto. cbn. destruct Hc as [<-|[<-|[<-|[<-|[]]]]]; reflexivity. Qed.
Lemma blanks_id b r : blanks b -> nohd id_tail r -> nohd id_tail (b ++ r).
Proof. intros [|c b' Hc Hb] H; auto. cbn. destruct Hc as [<-|[<-|[<-|[<-|[]]]]]; reflexivity. Qed.
Lemma mark_nohd f m r : f 43 = false -> f 45 = false -> f 126 = false -> nohd f r -> nohd f (mark m ++ r).
Proof. intros H1 H2 H3 H. destruct m as [[]|]; auto. Qed.
Lemma kw_tag_parse kw m b b' m' be r : kw_ok kw -> blanks b -> blanks b' -> closing_ok be ->
  (w1 <- ows ;; (pws (keyword kw) ;;; (w2 <- ows ;; pret (w1, w2)))) (mark m ++ b ++ kw ++ b' ++ mark m' ++ be ++ r) = POk (be ++ r) (m, m').
Proof.
  intros Hk Hb Hb' Hbe. destruct (closing_facts be Hbe) as (c & t & -> & Hc1 & Hc2 & Hc3).
  unfold pbind at 1. rewrite ows_exact by (intros _; apply blanks_mark; auto; apply kw_hd; [auto|apply id_not_mark]).
  unfold pbind at 1.
  assert (N1 : nohd is_ws (mark m' ++ (c :: t) ++ r)) by (apply mark_nohd; try reflexivity; exact Hc2).
  assert (N2 : nohd id_tail (b' ++ mark m' ++ (c :: t) ++ r)) by (apply blanks_id; auto; apply mark_nohd; try reflexivity; exact Hc1).
  rewrite (pws_exact (keyword kw) b (kw ++ b' ++ mark m' ++ (c :: t) ++ r) kw b' (mark m' ++ (c :: t) ++ r) kw); auto.
  - unfold pbind. rewrite ows_exact by (intros _; exact Hc3). reflexivity.
  - apply kw_hd; [auto|apply id_not_ws].
  - destruct Hk as (H1 & H2 & H3). apply keyword_exact; auto.
Qed.

Definition is_perr {A} (x : pres A) : Prop := exists e m, x = PErr e m.
Lemma skip_till_none {A} (p : P A) i : (forall a b, i = a ++ b -> is_perr (p b)) -> skip_till p i = PErr [] None.
Proof.
  induction i as [|c i IH]; intros H; cbn.
  - destruct (H [] [] eq_refl) as (e & m & ->). reflexivity.
  - destruct (H [] (c :: i) eq_refl) as (e & m & ->). apply IH. intros a b ->. apply (H (c :: a) b eq_refl).
Qed.
Lemma skip_till_at {A} (p : P A) x j k v : (forall a b, x = a ++ b -> b <> [] -> is_perr (p (b ++ j))) -> p j = POk k v ->
  skip_till p (x ++ j) = POk j (k, v).
Proof.
  intros H Hp. induction x as [|c x IH]; cbn [app].
  - destruct j; cbn; rewrite Hp; reflexivity.
  - cbn. destruct (H [] (c :: x) eq_refl ltac:(discriminate)) as (e & m & E). cbn in E. rewrite E. apply IH. intros a b -> Hb. apply (H (c :: a) b eq_refl Hb).
Qed.
Lemma starts_tag t s : starts_with t s = true <-> exists x, s = t ++ x.
Proof. apply starts_with_iff. Qed.

Section Src.
  Variables (lc : N -> bool) (dbg : str -> str) (sy : syntax).
  Hypothesis Hsy : syntax_valid sy.
  Let Hne := valid_nonempty sy Hsy.

  Lemma other_fails a b i : unrelated a b \/ unrelated b a -> (exists x, i = a ++ x) -> tag b i = PErr i None.
  Proof.
    intros Hu (x & ->). apply tag_fail. intros y E. assert (A1 : starts_with a (a ++ x) = true) by (apply starts_tag; eauto).
    assert (A2 : starts_with b (a ++ x) = true) by (apply starts_tag; eauto).
    destruct Hu as [Hu|Hu]; [exact (unrelated_exclusive _ _ _ Hu A1 A2)|exact (unrelated_exclusive _ _ _ Hu A2 A1)].
  Qed.

  (** ** Text without opening delimiters *)
  Definition plain (i : str) : Prop := forall t, In t [block_start sy; comment_start sy; expr_start sy] -> ~ contains t i.
  Lemma plain_tail a b t x : plain (a ++ b) -> In t [block_start sy; comment_start sy; expr_start sy] -> b <> t ++ x.
  Proof. intros H Ht ->. apply (H t Ht). exists a, x. reflexivity. Qed.
  Lemma lit_parse_plain c i : plain (c :: i) -> lit_parse sy (c :: i) = POk [] (split_ws_parts (c :: i)).
  Proof.
    intros H. unfold lit_parse. rewrite skip_till_none; [reflexivity|]. intros a b E. unfold por. rewrite E in H.
    rewrite !tag_fail by (intros x; eapply plain_tail; [exact H|cbn; auto]). unfold is_perr. eauto.
  Qed.
  (** At the end of the input no node starts. *)
  Lemma node_one_end many s : exists e m s', node_one lc dbg sy many s [] = (PErr e m, s') .
  Proof.
    destruct Hne as (H1 & H2 & H3 & H4 & H5 & H6).
    unfold node_one, mor, lift, pmap, lit_parse, comment_parse, pbind. rewrite tag_fail by (intros x E; destruct (comment_start sy); [congruence|discriminate]).
    unfold expr_node, mbind, lift. rewrite tag_fail by (intros x E; destruct (expr_start sy); [congruence|discriminate]).
    unfold node_parse, block_tag, pbind, block_start_. rewrite tag_fail by (intros x E; destruct (block_start sy); [congruence|discriminate]). eauto.
  Qed.
  Lemma node_one_end_state many s : snd (node_one lc dbg sy many s []) = s.
  Proof.
    destruct Hne as (H1 & H2 & H3 & H4 & H5 & H6).
    unfold node_one, mor, lift, pmap, lit_parse, comment_parse, pbind. rewrite tag_fail by (intros x E; destruct (comment_start sy); [congruence|discriminate]).
    unfold expr_node, mbind, lift. rewrite tag_fail by (intros x E; destruct (expr_start sy); [congruence|discriminate]).
    unfold node_parse, block_tag, pbind, block_start_. rewrite tag_fail by (intros x E; destruct (block_start sy); [congruence|discriminate]). reflexivity.
  Qed.
  Lemma many_end many f s : mmany0_fuel (S f) (node_one lc dbg sy many) s [] = (POk [] [], s).
  Proof.
    cbn [mmany0_fuel]. pose proof (node_one_end_state many s) as H. destruct (node_one_end many s) as (e & m & s' & E). rewrite E in *. cbn in H. now subst s'.
  Qed.
  Lemma many_cons many f s i r n s' : node_one lc dbg sy many s i = (POk r n, s') -> (length r < length i)%nat ->
    mmany0_fuel (S f) (node_one lc dbg sy many) s i =
    match mmany0_fuel f (node_one lc dbg sy many) s' r with (POk r' l, s'') => (POk r' (n :: l), s'') | x => x end.
  Proof. intros E L. cbn [mmany0_fuel]. rewrite E. destruct (Nat.eqb_spec (length r) (length i)); [lia|]. reflexivity. Qed.
  Lemma from_str_many src : from_str lc dbg sy src =
    match mmany0_fuel (S (length src)) (node_one lc dbg sy (Some (node_many lc dbg sy 127))) state0 src with
    | (POk [] l, _) => Some (inl l)
    | _ => from_str lc dbg sy src
    end.
  Proof.
    destruct (mmany0_fuel _ _ _ _) as [[[|c r] l|e m|e m|] s'] eqn:E; try reflexivity. unfold from_str, parse_template, mbind at 1.
    change (node_many lc dbg sy MAX_DEPTH state0 src) with (mmany0_fuel (S (length src)) (node_one lc dbg sy (Some (node_many lc dbg sy 127))) state0 src).
    rewrite E. reflexivity.
  Qed.
  Theorem plain_parses src : plain src -> from_str lc dbg sy src = Some (inl (match src with [] => [] | _ => [NLit (split_ws_parts src)] end)).
  Proof.
    intros H. rewrite from_str_many. destruct src as [|c i].
    - cbn [length]. rewrite many_end. reflexivity.
    - cbn [length]. rewrite (many_cons _ _ state0 (c :: i) [] (NLit (split_ws_parts (c :: i))) state0).
      + rewrite many_end. reflexivity.
      + unfold node_one, mor, lift, pmap. rewrite lit_parse_plain by exact H. reflexivity.
      + cbn. lia.
  Qed.

  (** ** Raw blocks *)
  Lemma lit_stops t i : In t [block_start sy; comment_start sy; expr_start sy] -> (exists x, i = t ++ x) -> exists e m, lit_parse sy i = PErr e m.
  Proof.
    intros Ht (x & ->). destruct Hne as (H1 & H2 & H3 & H4 & H5 & H6). unfold lit_parse.
    assert (Hn : t <> []) by (destruct Ht as [<-|[<-|[<-|[]]]]; assumption).
    destruct t as [|c t]; [congruence|]. cbn [app].
    assert (E : exists k v, (tag (block_start sy) <|> tag (comment_start sy) <|> tag (expr_start sy)) (c :: t ++ x) = POk k v).
    { change (c :: t ++ x) with ((c :: t) ++ x). unfold por.
      destruct (tag_cases (block_start sy) ((c :: t) ++ x)) as [(y & _ & ->)|[F1 ->]]; [eauto|].
      destruct (tag_cases (comment_start sy) ((c :: t) ++ x)) as [(y & _ & ->)|[F2 ->]]; [eauto|].
      destruct (tag_cases (expr_start sy) ((c :: t) ++ x)) as [(y & _ & ->)|[F3 ->]]; [eauto|].
      exfalso. destruct Ht as [E|[E|[E|[]]]]; rewrite <- E in *; [exact (F1 x eq_refl)|exact (F2 x eq_refl)|exact (F3 x eq_refl)]. }
    destruct E as (k & v & E). change (c :: t ++ x) with ([] ++ (c :: t ++ x)) at 1. rewrite (skip_till_at _ [] (c :: t ++ x) k v); [|intros [] b E2; destruct b; try discriminate; congruence|exact E].
    rewrite before_app || idtac. unfold before. rewrite Nat.sub_diag. cbn. eauto.
  Qed.
  Lemma node_one_block many s i : (exists x, i = block_start sy ++ x) -> node_one lc dbg sy many s i = node_parse lc dbg sy many s i.
  Proof.
    intros Hi. pose proof Hsy as (_ & U1 & U2 & U3). unfold node_one, mor, lift, pmap.
    destruct (lit_stops (block_start sy) i ltac:(cbn; auto) Hi) as (e & m & ->).
    unfold comment_parse, pbind. rewrite (other_fails (block_start sy) (comment_start sy) i (or_introl U2) Hi).
    unfold expr_node, mbind, lift. rewrite (other_fails (block_start sy) (expr_start sy) i (or_introl U1) Hi). reflexivity.
  Qed.
  Lemma block_tag_exact m b kw r : kw_ok kw -> blanks b -> nohd id_tail r ->
    block_tag sy (block_start sy ++ mark m ++ b ++ kw ++ r) = POk (mark m ++ b ++ kw ++ r) kw.
  Proof.
    intros Hk Hb Hr. unfold block_tag, block_start_, pbind. rewrite tag_exact. unfold peek. rewrite ows_exact by (intros _; apply blanks_mark; auto; apply kw_hd; [auto|apply id_not_mark]).
    rewrite skip_blanks_exact; auto; [|apply kw_hd; [auto|apply id_not_ws]]. destruct Hk as (K1 & K2 & K3). rewrite identifier_exact; auto.
  Qed.
  Lemma raw_kw : kw_ok (lit "raw").
  Proof. repeat split; try discriminate; repeat constructor. Qed.
  Lemma endraw_kw : kw_ok (lit "endraw").
  Proof. repeat split; try discriminate; repeat constructor. Qed.
  Notation bs := (block_start sy).
  Notation be := (block_end sy).
  Lemma endraw_exact m b b' m' r : blanks b -> blanks b' -> closing_ok be ->
    endraw sy (keyword_tag bs be (lit "endraw") m b b' m' ++ r) = POk (be ++ r) (m, m').
  Proof.
    intros Hb Hb' Hbe. unfold endraw, keyword_tag, block_start_. rewrite <- !app_assoc. unfold pbind at 1. rewrite tag_exact.
    pose proof (kw_tag_parse (lit "endraw") m b b' m' be r endraw_kw Hb Hb' Hbe) as K.
    unfold pbind in *. destruct (ows (mark m ++ _)) as [r1 w1|e x|e x|]; try discriminate. destruct (pws (keyword (lit "endraw")) r1) as [r2 k|e x|e x|]; try discriminate.
    destruct (ows r2) as [r3 w2|e x|e x|]; try discriminate. cbn in K. injection K as -> -> ->. unfold peek, block_end_. rewrite tag_exact. reflexivity.
  Qed.
  Lemma endraw_inv i r x : endraw sy i = POk r x -> starts_keyword_tag bs be (lit "endraw") i.
  Proof.
    unfold endraw. intros H. apply pbind_inv in H. destruct H as (i1 & t & H1 & H). apply tag_inv in H1. destruct H1 as [-> _].
    apply pbind_inv in H. destruct H as (i2 & w1 & H2 & H). apply ows_inv in H2. subst i1.
    apply pbind_inv in H. destruct H as (i3 & k & H3 & H). apply pws_inv in H3. destruct H3 as (b & j & b' & -> & Hb & _ & H3 & Hb' & _).
    apply keyword_inv in H3. destruct H3 as [-> _]. apply pbind_inv in H. destruct H as (i4 & w2 & H4 & H). apply ows_inv in H4. subst i3.
    apply pbind_inv in H. destruct H as (i5 & t2 & H5 & H). unfold peek in H5. destruct (block_end_ sy i4) as [i6 t3|e x'|e x'|] eqn:E; try discriminate.
    apply tag_inv in E. destruct E as [-> _]. exists w1, b, b', w2, i6. unfold keyword_tag. rewrite <- !app_assoc. auto.
  Qed.
  Definition raw_src m1 b1 b2 m2 text m3 b3 b4 m4 : str :=
    keyword_tag bs be (lit "raw") m1 b1 b2 m2 ++ text ++ keyword_tag bs be (lit "endraw") m3 b3 b4 m4.
  (** No end tag starts inside the text. *)
  Definition no_endraw (text after : str) : Prop :=
    forall a b, text = a ++ b -> b <> [] -> ~ starts_keyword_tag bs be (lit "endraw") (b ++ after).
  Lemma raw_node_one many m1 b1 b2 m2 text m3 b3 b4 m4 r s :
    many <> None -> closing_ok be -> blanks b1 -> blanks b2 -> blanks b3 -> blanks b4 ->
    no_endraw text (keyword_tag bs be (lit "endraw") m3 b3 b4 m4 ++ r) -> (level s < MAX_DEPTH)%nat ->
    node_one lc dbg sy many s (raw_src m1 b1 b2 m2 text m3 b3 b4 m4 ++ r) =
      (POk r (NRaw {| ws_l := m1; ws_r := m2 |} (split_ws_parts text) {| ws_l := m3; ws_r := m4 |}), s).
  Proof.
    intros Hm Hbe Hb1 Hb2 Hb3 Hb4 Hno Hl. unfold raw_src. rewrite node_one_block by (unfold keyword_tag; rewrite <- !app_assoc; eauto).
    unfold node_parse. unfold keyword_tag at 1. rewrite <- !app_assoc.
    destruct (closing_facts be Hbe) as (c & t & Ebe & Hc1 & Hc2 & Hc3).
    rewrite block_tag_exact; auto using raw_kw.
    2:{ apply blanks_id; auto. apply mark_nohd; try reflexivity. rewrite Ebe. exact Hc1. }
    destruct many as [many|]; [|congruence]. change (block_kind lc dbg sy many (lit "raw")) with (Some (lift (raw_parse sy))). cbv iota.
    unfold st_nest. destruct (Nat.leb_spec MAX_DEPTH (level s)) as [L|_]; [lia|]. unfold lift.
    assert (R : raw_parse sy (mark m1 ++ b1 ++ lit "raw" ++ b2 ++ mark m2 ++ be ++ text ++ keyword_tag bs be (lit "endraw") m3 b3 b4 m4 ++ r) =
      POk (be ++ r) (NRaw {| ws_l := m1; ws_r := m2 |} (split_ws_parts text) {| ws_l := m3; ws_r := m4 |})).
    { unfold raw_parse. pose proof (kw_tag_parse (lit "raw") m1 b1 b2 m2 be (text ++ keyword_tag bs be (lit "endraw") m3 b3 b4 m4 ++ r) raw_kw Hb1 Hb2 Hbe) as K.
      unfold pbind in *. destruct (ows (mark m1 ++ _)) as [r1 w1|e x|e x|]; try discriminate. destruct (pws (keyword (lit "raw")) r1) as [r2 k|e x|e x|]; try discriminate.
      unfold cut. destruct (ows r2) as [r3 w2|e x|e x|]; try discriminate. unfold pret in K. injection K as -> -> ->. unfold block_end_. rewrite tag_exact.
      unfold consumed. rewrite (skip_till_at (endraw sy) text (keyword_tag bs be (lit "endraw") m3 b3 b4 m4 ++ r) (be ++ r) (m3, m4)).
      - now rewrite before_app.
      - intros a b E Hb. specialize (Hno a b E Hb). pose proof (good_endraw sy _ _ (suffix_refl (b ++ keyword_tag bs be (lit "endraw") m3 b3 b4 m4 ++ r))) as G.
        destruct (endraw sy (b ++ _)) as [j x|e x|e x|] eqn:E2; [apply endraw_inv in E2; destruct (Hno E2)|unfold is_perr; eauto| |destruct G].
        exfalso. clear -E2. unfold endraw, pbind in E2. destruct (block_start_ sy _) as [j1 x1|? ?|? ?|] eqn:E3; try discriminate; [|unfold block_start_, tag in E3; destruct (strip_prefix _ _); discriminate].
        destruct (ows j1) as [j2 x2|? ?|? ?|] eqn:E4; try discriminate;
          [|unfold ows, opt, whitespace, por, value, pmap, pchar, satisfy in E4; destruct j1 as [|y ?]; [discriminate|]; destruct (43 =? y), (45 =? y), (126 =? y); discriminate].
        unfold pws at 1, pbind in E2. unfold skip_blanks, take_till in E2. destruct (span _ j2) as [? j3]. unfold keyword in E2.
        destruct (identifier j3) as [j4 x4|? ?|? ?|] eqn:E5; try discriminate.
        + destruct (str_eqb _ x4); try discriminate. destruct (span _ j4) as [? j5]. unfold pret in E2.
          destruct (ows j5) as [j6 x6|? ?|? ?|] eqn:E6; try discriminate;
            [|unfold ows, opt, whitespace, por, value, pmap, pchar, satisfy in E6; destruct j5 as [|y ?]; [discriminate|]; destruct (43 =? y), (45 =? y), (126 =? y); discriminate].
          unfold peek, block_end_, tag in E2. destruct (strip_prefix _ j6); discriminate.
        + unfold identifier, recognize, pbind, split_at_position1, opt in E5. destruct (span _ j3) as [[|] ?]; try discriminate. destruct (span _ _) as [[|] ?]; discriminate.
      - apply endraw_exact; auto. }
    rewrite R. unfold st_leave. cbn [fst snd level loop_depth]. unfold block_close, pbind, cut, por, value, pmap, block_end_. rewrite tag_exact. destruct s. reflexivity.
  Qed.
  Lemma keyword_tag_nonempty kw m b b' m' : keyword_tag bs be kw m b b' m' <> [].
  Proof. destruct Hne as (H1 & _). unfold keyword_tag. destruct bs; [congruence|discriminate]. Qed.
  Theorem raw_parses m1 b1 b2 m2 text m3 b3 b4 m4 :
    closing_ok be -> blanks b1 -> blanks b2 -> blanks b3 -> blanks b4 -> no_endraw text (keyword_tag bs be (lit "endraw") m3 b3 b4 m4) ->
    from_str lc dbg sy (raw_src m1 b1 b2 m2 text m3 b3 b4 m4) =
      Some (inl [NRaw {| ws_l := m1; ws_r := m2 |} (split_ws_parts text) {| ws_l := m3; ws_r := m4 |}]).
  Proof.
    intros Hbe Hb1 Hb2 Hb3 Hb4 Hno.
    pose proof (fun many H => raw_node_one many m1 b1 b2 m2 text m3 b3 b4 m4 [] state0 H Hbe Hb1 Hb2 Hb3 Hb4) as K. rewrite !app_nil_r in K.
    rewrite from_str_many.
    rewrite (many_cons _ _ _ _ _ _ _ (K (Some (node_many lc dbg sy 127)) ltac:(discriminate) Hno ltac:(unfold MAX_DEPTH; cbn; lia))).
    - assert (L : exists f, length (raw_src m1 b1 b2 m2 text m3 b3 b4 m4) = S f).
      { unfold raw_src. pose proof (keyword_tag_nonempty (lit "raw") m1 b1 b2 m2) as Z. destruct (keyword_tag bs be (lit "raw") _ _ _ _); [congruence|]. cbn. eauto. }
      destruct L as (f & ->). rewrite many_end. reflexivity.
    - unfold raw_src. pose proof (keyword_tag_nonempty (lit "raw") m1 b1 b2 m2) as Z. destruct (keyword_tag bs be (lit "raw") _ _ _ _); [congruence|]. cbn. lia.
  Qed.
End Src.

(** ** What the generator writes for it *)
Lemma plain_output dflt src : exists out,
  ws_run dflt (match src with [] => [] | _ => [ILit (split_ws_parts src)] end) ws_init = Some out /\ concat out = src.
Proof.
  destruct src as [|c s]; [exists []; auto|]. set (t := c :: s) in *. destruct (split_correct t) as (H1 & _ & _ & H2 & _).
  destruct (ws_run_correct dflt [ILit (split_ws_parts t)]) as (out & -> & H).
  { cbn. auto. }
  exists out. split; [reflexivity|]. rewrite H. cbn [spec_run]. rewrite app_nil_r. unfold lit_spec, hd_or, treat.
  destruct (lval (split_ws_parts t)) as [|y l] eqn:E; [|now symmetry].
  rewrite (H2 eq_refl) in H1. cbn in H1. rewrite app_nil_r in H1. now symmetry.
Qed.
Lemma raw_output dflt m1 m2 m3 m4 text : exists out,
  ws_run dflt [ITag {| ws_l := m1; ws_r := m2 |}; ILit (split_ws_parts text); ITag {| ws_l := m3; ws_r := m4 |}] ws_init = Some out /\
  (hd_or dflt m2 = Preserve -> hd_or dflt m3 = Preserve -> concat out = text) /\
  (forall a v b, text = a ++ v ++ b -> blanks a -> blanks b -> v <> [] -> nohd is_ws v -> nohd is_ws (rev v) ->
     concat out = treat (hd_or dflt m2) a ++ v ++ treat (hd_or dflt m3) b).
Proof.
  destruct (split_correct text) as (H1 & B1 & B2 & H2 & N1 & N2).
  destruct (ws_run_correct dflt [ITag {| ws_l := m1; ws_r := m2 |}; ILit (split_ws_parts text); ITag {| ws_l := m3; ws_r := m4 |}]) as (out & -> & H).
  { cbn. auto. }
  exists out. split; [reflexivity|]. rewrite H. cbn [spec_run]. rewrite app_nil_r. cbn [ws_l ws_r]. unfold lit_spec, hd_or. split.
  - intros -> ->. destruct (lval (split_ws_parts text)) as [|y l] eqn:E.
    + rewrite (H2 eq_refl) in H1. cbn in H1. rewrite app_nil_r in H1. cbn. now symmetry.
    + cbn [treat]. now symmetry.
  - intros a v b E Ha Hb Hv Hh Hl. clear H H2.
    assert (U : lws (split_ws_parts text) = a /\ lval (split_ws_parts text) = v /\ rws (split_ws_parts text) = b).
    { revert N1 N2 B1 B2 H1. destruct (split_ws_parts text) as [a' v' b']. cbn [lws lval rws]. intros N1 N2 B1 B2 H1.
      assert (Hbl : forall x, blanks x -> Forall (fun c => is_ws c = true) x).
      { intros x. apply Forall_impl. intros c [<-|[<-|[<-|[<-|[]]]]]; reflexivity. }
      apply Hbl in Ha. apply Hbl in Hb. destruct v as [|c v]; [congruence|]. rewrite E in H1.
      assert (P1 : forall x y (u w : str), Forall (fun c => is_ws c = true) x -> Forall (fun c => is_ws c = true) y -> nohd is_ws u -> nohd is_ws w -> (u <> [] \/ w = []) -> (w <> [] \/ u = []) -> x ++ u = y ++ w -> x = y /\ u = w).
      { clear. induction x as [|p x IH]; intros [|q y] u w Hx Hy Hu Hw N1 N2 E; cbn in *; auto.
        - subst u. cbn in Hu. inversion Hy; congruence.
        - subst w. cbn in Hw. inversion Hx; congruence.
        - injection E as -> E. inversion Hx; inversion Hy; subst. destruct (IH y u w) as [-> ->]; auto. }
      assert (Nv : v' <> []).
      { intros ->. cbn in H1. assert (K : Forall (fun c => is_ws c = true) (a ++ (c :: v) ++ b)).
        { pose proof (proj2 (Forall_app (fun c => is_ws c = true) a' b') (conj B1 B2)) as K. rewrite <- H1 in K. exact K. }
        apply Forall_app in K as [_ K]. inversion K; subst. cbn in Hh. congruence. }
      destruct (P1 a a' ((c :: v) ++ b) (v' ++ b')) as [-> E2]; auto; try discriminate.
      - destruct v' as [|d v']; [congruence|]. exact (N1 d v' eq_refl).
      - left. discriminate.
      - left. destruct v'; [congruence|discriminate].
      - split; auto. assert (E3 : rev b ++ rev (c :: v) = rev b' ++ rev v') by (rewrite <- !rev_app_distr; now rewrite E2).
        destruct (P1 (rev b) (rev b') (rev (c :: v)) (rev v')) as [Eb Ev]; auto.
        + now apply Forall_rev.
        + now apply Forall_rev.
        + assert (Q : forall d u, rev v' = d :: u -> is_ws d = false).
          { intros d u Er. apply (N2 d (rev u)). rewrite <- (rev_involutive v'), Er. reflexivity. }
          destruct (rev v'); [exact I|]. exact (Q _ _ eq_refl).
        + left. cbn. destruct (rev v); discriminate.
        + left. intros K. apply (f_equal (@rev N)) in K. rewrite rev_involutive in K. cbn in K. exact (Nv K).
        + apply (f_equal (@rev N)) in Eb, Ev. rewrite !rev_involutive in *. auto. }
    destruct U as (-> & -> & ->). destruct v; [congruence|]. reflexivity.
Qed.
