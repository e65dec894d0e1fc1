(** * Written tags: what each tag parser reads. *)
From Verif Require Import Base Config ConfigFacts Nom Ws Ast Lex ParseExpr ParseNode NomFacts LexFacts LitSpec LitFacts ParseSpec TreeSpec ExprFacts WsFacts NodeFacts TplFacts TextFacts CommentFacts PrecSpec LitComplete SimExpr SimFacts PrecFacts PrecRound PrecTop WriteSpec WriteTarget WriteExpr.
From Coq Require Import Lia ZArith ZifyBool ZifyNat ZifyN.
Local Open Scope N_scope.

Lemma nohd_blanks (f : N -> bool) b r : (forall c, is_ws c = true -> f c = false) -> blanks b -> nohd f r -> nohd f (b ++ r).
Proof. intros Hf Hb Hr. destruct b as [|c b]; auto. cbn [app nohd]. apply Hf. inversion Hb as [|? ? K]; subst. repeat (destruct K as [<-|K]; [reflexivity|]). destruct K. Qed.
Lemma no_word_id t y : no_word t -> t <> [] -> nohd id_tail (t ++ y).
Proof. destruct t as [|c t]; [congruence|]. intros H _. cbn [app nohd]. cbn in H. unfold word_char, ident_start in H. unfold id_tail, id_start, is_upper, is_lower, is_dec. lia. Qed.
Lemma id_no_word t y : nohd id_tail (t ++ y) -> no_word t.
Proof. destruct t as [|c t]; cbn; auto. unfold word_char, ident_start, id_tail, id_start, is_upper, is_lower, is_dec. lia. Qed.
Lemma ws_id b r : blanks b -> b <> [] -> nohd id_tail (b ++ r).
Proof. intros H N. destruct b as [|c b]; [congruence|]. inversion H as [|? ? K]; subst. cbn [app nohd]. repeat (destruct K as [<-|K]; [reflexivity|]). destruct K. Qed.
Lemma apart_id b t y : apart b t -> t <> [] -> nohd id_tail (b ++ t ++ y).
Proof. intros (H1 & H2) N. destruct b as [|c b]; [cbn [app]; apply no_word_id; auto|]. apply ws_id; [auto|discriminate]. Qed.
Lemma mmany0_stop {A} (p : M A) s i e m : p s i = (PErr e m, s) -> mmany0 p s i = (POk i [], s).
Proof. intros E. unfold mmany0. cbn [mmany0_fuel]. now rewrite E. Qed.
Lemma mfuel {A} (p : M A) : forall n s i r l s', mmany0_fuel n p s i = (POk r l, s') -> forall n', (n <= n')%nat -> mmany0_fuel n' p s i = (POk r l, s').
Proof.
  induction n as [|n IH]; intros s i r l s' E n' L; [discriminate|]. destruct n' as [|n']; [lia|]. cbn [mmany0_fuel] in *.
  destruct (p s i) as [[j a|e m|e m|] s1]; try exact E. destruct (Nat.eqb (length j) (length i)); [exact E|].
  destruct (mmany0_fuel n p s1 j) as [[r2 l2|e m|e m|] s2] eqn:F; try discriminate. rewrite (IH _ _ _ _ _ F n' ltac:(lia)). exact E.
Qed.
Lemma mmany0_step {A} (p : M A) s i j a r l : p s i = (POk j a, s) -> (length j < length i)%nat -> mmany0 p s j = (POk r l, s) -> mmany0 p s i = (POk r (a :: l), s).
Proof.
  unfold mmany0. intros E L F. cbn [mmany0_fuel]. rewrite E. destruct (Nat.eqb_spec (length j) (length i)); [lia|]. rewrite (mfuel p _ _ _ _ _ _ F (length i) ltac:(lia)). reflexivity.
Qed.
Lemma in_loop_ok {A} (p : M A) s i r a : p {| level := level s; loop_depth := S (loop_depth s) |} i = (POk r a, {| level := level s; loop_depth := S (loop_depth s) |}) ->
  in_loop p s i = (POk r a, s).
Proof. intros E. unfold in_loop. rewrite E. destruct s. reflexivity. Qed.
Lemma cut_ok {A} (p : P A) i r a : p i = POk r a -> cut p i = POk r a.
Proof. intros E. unfold cut. now rewrite E. Qed.
Lemma tag_perr1 c t i : nohd (N.eqb c) i -> is_perr (tag (c :: t) i).
Proof. intros H. unfold tag. destruct i as [|d i]; cbn [strip_prefix]; [exact (perr_i _ _)|]. cbn in H. rewrite H. exact (perr_i _ _). Qed.
Lemma filter_fold fs : forall n l, fold_left (fun '(n, a) '(n2, a2) => (n2, Filter n a :: match a2 with Some l => l | None => [] end)) fs (n, l) = filter_chain n l fs.
Proof. induction fs as [|[n' o] fs IH]; intros n l; [reflexivity|]. cbn [fold_left filter_chain]. rewrite IH. destruct o; reflexivity. Qed.

Section Tag.
  Variables (lc : N -> bool) (dbg : str -> str) (sy : syntax).
  Hypothesis Hsy : syntax_valid sy.
  Hypothesis Hbe : block_end_ok (block_end sy).
  Notation bs := (block_start sy).
  Notation be := (block_end sy).
  Notation btag := (btag sy).

  (** ** The rest of a tag *)
  Definition tail (m : option handling) (r : str) : str := mark m ++ be ++ r.
  Lemma be_hd : exists c t, be = c :: t /\ is_mark c = false /\ c <> 123.
  Proof using Hbe.
    destruct Hbe as (H1 & H2). destruct (plain_end_stop be [] H1) as (c & t & E & M & _). exists c, t. repeat split; auto. intros ->. rewrite E in H2. now apply H2.
  Qed.
  Lemma tail_ends2 m r : ends2 (tail m r).
  Proof using Hbe. clear lc dbg. apply mark_ends. apply Hbe. Qed.
  Lemma tail_ws m r : nohd is_ws (tail m r).
  Proof using Hbe. apply ends2_ws, tail_ends2. Qed.
  Lemma tail_id m r : nohd id_tail (tail m r).
  Proof using Hbe. apply ends2_id, tail_ends2. Qed.
  Lemma tail_start m r : nohd id_start (tail m r).
  Proof using Hbe. eapply nohd_imp; [|apply tail_id]. intros c. apply id_start_tail. Qed.
  Lemma tail_chr c m r : In c (123 :: lit "*/&|^<>=!.[(?:" ++ [34; 39]) -> nohd (N.eqb c) (tail m r).
  Proof using Hbe. clear lc dbg.
    intros [<-|H]; [|now apply ends2_chr, tail_ends2]. destruct be_hd as (c & t & E & M & N). unfold tail. destruct m as [[]|]; try reflexivity. rewrite E. cbn [mark app nohd]. lia.
  Qed.
  Lemma tail_ows m r : ows (tail m r) = POk (be ++ r) m.
  Proof using Hbe. unfold tail. destruct be_hd as (c & t & E & M & N). apply ows_exact. intros _. rewrite E. exact M. Qed.
  Lemma be_tag r : block_end_ sy (be ++ r) = POk r be.
  Proof. clear lc dbg Hsy Hbe. apply tag_exact. Qed.
  Lemma bs_tag r : block_start_ sy (bs ++ r) = POk r bs.
  Proof. clear lc dbg Hsy Hbe. apply tag_exact. Qed.
  Lemma tail_ts b m r : ts b (tail m r).
  Proof using Hbe. clear lc dbg.
    repeat split; [apply tail_ws| |intros _; apply tail_id|apply keyword_no0, tail_start|].
    - intros c Hc. apply tail_chr. cbn in *. tauto.
    - intros x E. pose proof (tail_start m r) as K. rewrite E in K. discriminate.
  Qed.
  Lemma bs_ws r : nohd is_ws (bs ++ r).
  Proof using Hsy. clear lc dbg.
    destruct Hsy as (F & _). inversion F as [|? ? D _]; subst. destruct D as (L & D & _). destruct bs as [|c t]; [cbn in L; lia|].
    cbn [app nohd]. specialize (D c ltac:(now left)). destruct (is_ws c) eqn:E; auto. unfold is_ws in E.
    assert (c = 32 \/ c = 9 \/ c = 13 \/ c = 10) as [->|[->|[->| ->]]] by lia; discriminate.
  Qed.
  Lemma bs_ne : bs <> [].
  Proof using Hsy. destruct (valid_nonempty sy Hsy) as (H & _). exact H. Qed.

  (** ** Keywords *)
  Lemma kw_step kw b b1 X : kw_ok kw -> blanks b -> blanks b1 -> nohd is_ws X -> nohd id_tail (b1 ++ X) -> pws (keyword kw) (b ++ kw ++ b1 ++ X) = POk X kw.
  Proof.
    clear lc dbg Hsy Hbe sy. intros Hk Hb Hb1 HX Hi. apply (pws_of (keyword kw) b (kw ++ b1 ++ X) b1 X kw); auto; [apply kw_hd; [auto|apply id_not_ws]|]. destruct Hk as (K1 & K2 & K3). now apply keyword_exact.
  Qed.
  Lemma kw_ows m b kw Y : kw_ok kw -> blanks b -> ows (mark m ++ b ++ kw ++ Y) = POk (b ++ kw ++ Y) m.
  Proof. clear lc dbg Hsy Hbe sy. intros Hk Hb. apply ows_exact. intros _. apply blanks_mark; auto. apply kw_hd; [auto|apply id_not_mark]. Qed.
  Lemma kw_other kw kw' b Y : kw_ok kw' -> blanks b -> nohd id_tail Y -> kw <> kw' -> is_perr (pws (keyword kw) (b ++ kw' ++ Y)).
  Proof.
    clear lc dbg Hsy Hbe sy. intros Hk Hb HY N. apply pws_perr; auto; [apply kw_hd; [auto|apply id_not_ws]|]. unfold keyword. destruct Hk as (K1 & K2 & K3). rewrite identifier_exact by auto.
    destruct (str_eqb kw kw') eqn:E; [apply str_eqb_eq in E; congruence|]. exact (perr_i _ _).
  Qed.
  Lemma kw_tail kw m r : is_perr (pws (keyword kw) (tail m r)).
  Proof using Hbe. apply pws_perr0; [apply tail_ws|apply keyword_no0, tail_start]. Qed.
  Lemma head_step {B} kw m b b1 X (k : option handling -> M B) s x : kw_ok kw -> blanks b -> blanks b1 -> nohd is_ws X -> nohd id_tail (b1 ++ X) -> k m s X = x ->
    (w1 <-- lift ows ;; (lift (pws (keyword kw)) ;;-- k w1)) s (mark m ++ b ++ kw ++ b1 ++ X) = x.
  Proof. clear lc dbg Hsy Hbe sy. intros. eapply mb_lift; [now apply kw_ows|]. eapply mb_lift; [now apply kw_step|]. assumption. Qed.
  Lemma phead_step {B} kw m b b1 X (k : option handling -> P B) x : kw_ok kw -> blanks b -> blanks b1 -> nohd is_ws X -> nohd id_tail (b1 ++ X) -> k m X = x ->
    (w1 <- ows ;; (pws (keyword kw) ;;; k w1)) (mark m ++ b ++ kw ++ b1 ++ X) = x.
  Proof. clear lc dbg Hsy Hbe sy. intros. eapply pb_ok; [now apply kw_ows|]. eapply pb_ok; [now apply kw_step|]. assumption. Qed.
  (** The end tag. *)
  Lemma end_step {B} kw m b b' m' r (k : option handling -> option handling -> M B) s x : kw_ok kw -> blanks b -> blanks b' -> k m m' s (be ++ r) = x ->
    (lift (block_start_ sy) ;;-- (w3 <-- lift ows ;; (lift (pws (keyword kw)) ;;-- (w4 <-- lift ows ;; k w3 w4)))) s (btag m b kw b' m' ++ r) = x.
  Proof using Hbe.
    intros Hk Hb Hb' E. unfold WriteSpec.btag. rewrite <- !app_assoc. eapply mb_lift; [apply bs_tag|]. change (mark m' ++ be ++ r) with (tail m' r).
    apply head_step; auto; [apply tail_ws|apply blanks_id; auto; apply tail_id|]. eapply mb_lift; [apply tail_ows|]. exact E.
  Qed.

  (** ** Nodes that are blocks *)
  Notation node_many := (node_many lc dbg sy).
  Notation node_one := (node_one lc dbg sy).
  Definition mo (d : nat) : option (M (list node)) := match d with O => None | S d' => Some (node_many d') end.
  Lemma node_many_eq d : node_many d = mmany0 (node_one (mo d)).
  Proof. clear Hsy Hbe. destruct d; reflexivity. Qed.
  Lemma node_block d s m b kw Y f n r : (level s < 128)%nat -> kw_ok kw -> blanks b -> nohd id_tail Y -> block_kind lc dbg sy (node_many d) kw = Some f ->
    f (up s) (mark m ++ b ++ kw ++ Y) = (POk (be ++ r) n, up s) -> node_one (Some (node_many d)) s (bs ++ mark m ++ b ++ kw ++ Y) = (POk r n, s).
  Proof using Hsy.
    clear Hbe. intros L Hk Hb HY Ek Ef. rewrite node_one_block by eauto. unfold node_parse. rewrite block_tag_exact by auto. rewrite Ek. unfold st_nest.
    destruct (Nat.leb_spec MAX_DEPTH (level s)) as [L'|_]; [unfold MAX_DEPTH in L'; lia|]. fold (up s). rewrite Ef. unfold st_leave. cbn [fst snd level loop_depth up].
    unfold block_close, pbind, cut, por, value, pmap, block_end_. rewrite tag_exact. destruct s. reflexivity.
  Qed.
  (** Where a list of nodes ends. *)
  Definition stops (i : str) : Prop := forall d s, exists e m, node_one (mo d) s i = (PErr e m, s).
  Lemma stops_nil : stops [].
  Proof using Hsy. clear Hbe. intros d s. destruct (node_one_end lc dbg sy Hsy (mo d) s) as (e & m & s' & E). pose proof (node_one_end_state lc dbg sy Hsy (mo d) s) as F. rewrite E in F. cbn in F. subst s'. eauto. Qed.
  Lemma stops_tag m b kw Y : kw_ok kw -> blanks b -> nohd id_tail Y -> (forall many, block_kind lc dbg sy many kw = None) -> stops (bs ++ mark m ++ b ++ kw ++ Y).
  Proof using Hsy. clear Hbe. intros Hk Hb HY Hn d s. rewrite node_one_block by eauto. unfold node_parse. rewrite block_tag_exact, Hn by auto. eauto. Qed.

  (** ** Targets, expressions and conditions *)
  Lemma ts_any b r : ts [] r -> ts b r.
  Proof. clear lc dbg Hsy Hbe sy. intros ((H1 & H2 & H3 & H4) & H5). repeat split; auto. Qed.
  Lemma mws_tparse s b0 t b r : target_fits lc (level s) t -> blanks b0 -> blanks b -> ts b r -> mws (tparse lc) s (b0 ++ ttext t ++ b ++ r) = (POk r t, s).
  Proof.
    clear dbg Hsy Hbe sy. intros (Ht & Hd) Hb0 Hb Hts. destruct (proj1 (target_reads lc t Ht) MAX_DEPTH s b r) as (b' & Sl & E); [change MAX_DEPTH with 128%nat; lia|change MAX_DEPTH with 128%nat; lia|exact Hb|exact Hts|].
    eapply mws_ok; [auto|now apply (ttext_ws lc)|eapply slack_blanks; eauto|apply Hts|exact E].
  Qed.
  Lemma ttext_ne t : target_ok lc t -> ttext t <> [].
  Proof. clear dbg Hsy Hbe sy. intros H. destruct (target_hd lc t H) as (c & u & -> & _). discriminate. Qed.
  Lemma text_ne k e : fits lc k e -> text e <> [].
  Proof. clear dbg Hsy Hbe sy. intros (H & _). destruct (canon_hd lc e _ H) as (c & t & -> & _). discriminate. Qed.
  Lemma text_ws k e r : fits lc k e -> nohd is_ws (text e ++ r).
  Proof. clear dbg Hsy Hbe sy. intros (H & _). eapply canon_ws; eauto. Qed.
  Lemma let_kw kw : In kw [lit "let"; lit "set"] -> kw_ok kw /\ forall many, block_kind lc dbg sy many kw = Some (let_parse lc).
  Proof. clear Hsy Hbe. intros [<-|[<-|[]]]; (split; [repeat split; try discriminate; repeat constructor|reflexivity]). Qed.
  Lemma let_set_ok kw b b1 X : In kw [lit "let"; lit "set"] -> blanks b -> blanks b1 -> nohd is_ws X -> nohd id_tail (b1 ++ X) -> pws let_set (b ++ kw ++ b1 ++ X) = POk X kw.
  Proof.
    clear Hsy Hbe sy lc dbg. intros Hk Hb Hb1 HX Hi. apply (pws_of let_set b (kw ++ b1 ++ X) b1 X kw); auto; [destruct Hk as [<-|[<-|[]]]; reflexivity|]. unfold let_set, por.
    destruct Hk as [<-|[<-|[]]].
    - rewrite keyword_exact; auto; try discriminate; repeat constructor.
    - unfold keyword at 1. rewrite identifier_exact; auto; try discriminate; try (repeat constructor). change (str_eqb (lit "let") (lit "set")) with false. cbv iota.
      apply keyword_exact; auto; try discriminate; repeat constructor.
  Qed.
  Lemma identifier_max i r a : identifier i = POk r a -> i = a ++ r /\ nohd id_tail r.
  Proof.
    clear Hsy Hbe sy lc dbg. intros H. pose proof (identifier_spec _ _ _ H) as (K & _). split; [exact K|]. clear K. revert H. unfold identifier, recognize, pbind, split_at_position1, opt.
    destruct (span (fun c => negb (negb (id_start c))) i) as [[|x p] j] eqn:E1; try discriminate.
    pose proof (span_nohd (fun c => negb (negb (id_tail c))) j) as N.
    assert (Q : forall z, nohd (fun c => negb (negb (id_tail c))) z -> nohd id_tail z) by (intros [|c z]; cbn; auto; now rewrite negb_involutive).
    destruct (span (fun c => negb (negb (id_tail c))) j) as [[|y q] j2] eqn:E2; intros [= <- _]; apply Q; cbn [snd] in N; auto.
    pose proof (span_nil (fun c => negb (negb (id_tail c))) j) as K. rewrite E2 in K. cbn [fst snd] in K. rewrite <- (K eq_refl). exact N.
  Qed.
  Lemma kw_not_start kw t Z : kw_ok kw -> ~ starts_word kw t -> t <> [] -> nohd id_tail Z -> is_perr (keyword kw (t ++ Z)).
  Proof.
    clear Hsy Hbe sy lc dbg. intros Hk Hn Ht HZ. unfold keyword. destruct (identifier (t ++ Z)) as [j v|e m|e m|] eqn:E.
    - destruct (str_eqb kw v) eqn:K; [|exact (perr_i _ _)]. exfalso. apply str_eqb_eq in K. subst v. apply identifier_max in E. destruct E as (E & Hj).
      apply Hn. assert (S : exists u, t = kw ++ u /\ j = u ++ Z).
      { destruct Hk as (_ & _ & Hk). clear Hn Hj. revert kw E Hk. induction t as [|c t IH]; [congruence|]. intros [|k kw] E Hk; [exists (c :: t); auto|].
        cbn [app] in E. injection E as <- E. inversion Hk; subst. destruct t as [|d t].
        - destruct kw as [|k kw]; [exists []; auto|]. cbn [app] in E. subst Z. cbn in HZ. inversion H2; congruence.
        - destruct (IH ltac:(discriminate) kw E H2) as (u & -> & ->). exists u. auto. }
      destruct S as (u & -> & ->). exists u. split; auto. eapply id_no_word; eauto.
    - exact (perr_i _ _).
    - exfalso. unfold identifier, recognize, pbind, split_at_position1, opt in E. destruct (span _ (t ++ Z)) as [[|] ?]; try discriminate. destruct (span _ _) as [[|] ?]; discriminate.
    - exfalso. unfold identifier, recognize, pbind, split_at_position1, opt in E. destruct (span _ (t ++ Z)) as [[|] ?]; try discriminate. destruct (span _ _) as [[|] ?]; discriminate.
  Qed.
  Lemma test_read s c t b m r : test_text lc (level s) c t -> blanks b -> parse_cond lc s (t ++ b ++ tail m r) = (POk (tail m r) c, s).
  Proof using Hbe. clear dbg.
    intros H Hb. unfold parse_cond. inversion H as [e He Hn|kw b1 tg b2 b3 e Hkw Ha Ht Hb2 Hb3 He]; subst.
    - eapply mb_ok.
      + assert (N : is_perr (pws let_set (text e ++ b ++ tail m r))).
        { apply pws_perr0; [eapply text_ws; eauto|]. unfold let_set, por.
          assert (Z : nohd id_tail (b ++ tail m r)) by (apply blanks_id; auto; apply tail_id).
          destruct (kw_not_start (lit "let") (text e) (b ++ tail m r)) as (x & y & ->); [repeat split; try discriminate; repeat constructor|apply Hn; now left|eapply text_ne; eauto|exact Z|].
          apply kw_not_start; [repeat split; try discriminate; repeat constructor|apply Hn; right; now left|eapply text_ne; eauto|exact Z]. }
        destruct N as (x & y & N). eapply mopt_no. unfold mbind at 1, lift at 1. rewrite N. reflexivity.
      + eapply mb_ok; [apply (mws_eparse lc s [] e b (tail m r)); [auto|constructor|auto|apply tail_ends2]|]. reflexivity.
    - rewrite <- !app_assoc. pose proof (proj1 Ht) as Hok. eapply mb_ok.
      + eapply mopt_ok. eapply mb_lift; [apply (let_set_ok kw [] b1 (ttext tg ++ b2 ++ lit "=" ++ b3 ++ text e ++ b ++ tail m r)); [auto|constructor|apply Ha|now apply (ttext_ws lc)|apply apart_id; auto; now apply ttext_ne]|].
        eapply mb_ok; [apply (mws_tparse s [] tg b2); [auto|constructor|auto|apply ts_any, ts_stop; cbn; tauto]|].
        eapply mb_lift; [apply (pws_char 61 [] b3); [constructor|auto|eapply text_ws; eauto|reflexivity]|]. reflexivity.
      + eapply mb_ok; [apply (mws_eparse lc s [] e b (tail m r)); [auto|constructor|auto|apply tail_ends2]|]. reflexivity.
  Qed.
  Lemma test_ne k c t : test_text lc k c t -> t <> [] /\ forall y, nohd is_ws (t ++ y).
  Proof.
    clear dbg sy Hsy Hbe. intros H. inversion H as [e He Hn|kw b1 tg b2 b3 e Hkw Ha Ht Hb2 Hb3 He]; subst.
    - split; [eapply text_ne; eauto|]. intros. eapply text_ws; eauto.
    - destruct Hkw as [<-|[<-|[]]]; (split; [discriminate|reflexivity]).
  Qed.

  (** ** Tags without a body *)
  Lemma pws_ident b x b1 X : ident x -> blanks b -> blanks b1 -> nohd is_ws X -> nohd id_tail (b1 ++ X) -> pws identifier (b ++ x ++ b1 ++ X) = POk X x.
  Proof.
    clear Hsy Hbe sy lc dbg. intros Hx Hb Hb1 HX Hi. apply (pws_of identifier b (x ++ b1 ++ X) b1 X x); auto; [|now apply ident_read].
    pose proof (ident_kw x Hx) as K. apply kw_hd; [auto|apply id_not_ws].
  Qed.
  Lemma ident_nws x y : ident x -> nohd is_ws (x ++ y).
  Proof. clear Hsy Hbe sy lc dbg. intros Hx. apply kw_hd; [now apply ident_kw|apply id_not_ws]. Qed.
  Lemma pws_quoted b p b1 X : quoted 34 p -> blanks b -> blanks b1 -> nohd is_ws X -> pws str_lit (b ++ lit """" ++ p ++ lit """" ++ b1 ++ X) = POk X p.
  Proof.
    clear Hsy Hbe sy lc dbg. intros Hp Hb Hb1 HX. apply (pws_of str_lit b (lit """" ++ p ++ lit """" ++ b1 ++ X) b1 X p); auto; [reflexivity|]. apply (str_lit_complete p (b1 ++ X) Hp).
  Qed.
  Lemma simple_read il s m b body b' m' n r : blanks b -> blanks b' -> (il = true -> loop_depth s <> 0%nat) -> simple_text lc (level s) il {| ws_l := m; ws_r := m' |} n body ->
    exists kw Y, body = kw ++ Y /\ kw_ok kw /\ nohd id_tail (Y ++ b' ++ tail m' r) /\ exists f, (forall many, block_kind lc dbg sy many kw = Some f) /\
      f s (mark m ++ b ++ kw ++ Y ++ b' ++ tail m' r) = (POk (be ++ r) n, s).
  Proof using Hbe.
    intros Hb Hb' Hil H. inversion H as [w b1 sc name args Hb1 Hsc Hname Hroom Hargs|w kw b1 t Hkw Ha Ht|w kw b1 t b2 b3 e Hkw Ha Ht Hb2 Hb3 He|b1 p Hb1 Hp|w b1 p Hb1 Hp|w b1 p b2 b3 sc Hb1 Hp Hb2 Hb3 Hsc|w Hl|w Hl]; subst.
    - exists (lit "call"), (b1 ++ match sc with Some s => s ++ lit "::" | None => [] end ++ name ++ opt_args args).
      split; [now rewrite <- ?app_assoc|]. split; [repeat split; try discriminate; repeat constructor|]. rewrite <- !app_assoc. split; [apply ws_id; apply Hb1|]. eexists. split; [reflexivity|].
      set (Z := opt_args args ++ b' ++ tail m' r).
      assert (Z1 : exists b2 Z', blanks b2 /\ Z = b2 ++ Z' /\ nohd is_ws Z' /\ nohd id_tail Z /\ nohd (N.eqb 58) Z' /\ mopt (mws (eargs lc true)) s Z' = (POk (tail m' r) args, s)).
      { unfold Z. destruct args as [l|].
        - exists [], (args_text l ++ b' ++ tail m' r). repeat split; [constructor|]. cbn in Hroom. apply mopt_ok.
          apply (mws_ok (eargs lc true) s [] (args_text l ++ b' ++ tail m' r) b' (tail m' r)); [constructor|reflexivity|auto|apply tail_ws|]. apply eargs_macro; [lia|exact Hargs].
        - exists b', (tail m' r). repeat split; [auto|apply tail_ws|cbn [opt_args app]; apply blanks_id; auto; apply tail_id|apply tail_chr; cbn; tauto|].
          cbn in Hroom. destruct (eargs_none lc true s (tail m' r) []) as (e & x & E); [lia|constructor|apply tail_ws|apply tail_chr; cbn; tauto|]. cbn [app] in E.
          eapply mopt_no. unfold mws. eapply mb_lift; [apply (skip_blanks_exact [] (tail m' r)); [constructor|apply tail_ws]|]. unfold mbind at 1. rewrite E. reflexivity. }
      destruct Z1 as (b2 & Z' & Hb2 & EZ & HZ1 & HZ2 & HZ3 & HZ4). clearbody Z. subst Z. unfold call_parse.
      eapply head_step; [repeat split; try discriminate; repeat constructor|auto|apply Hb1|destruct sc; cbn [app]; rewrite <- ?app_assoc; apply ident_nws; auto|apply ws_id; apply Hb1|].
      eapply mcut_ok. eapply mb_lift.
      + instantiate (1 := sc). instantiate (1 := name ++ b2 ++ Z'). destruct sc as [x|].
        * rewrite <- !app_assoc. eapply opt_ok. eapply pb_ok; [apply (pws_ident [] x [] (lit "::" ++ name ++ b2 ++ Z')); [auto|constructor|constructor|reflexivity|reflexivity]|].
          eapply pb_ok; [|reflexivity]. apply (pws_of (tag (lit "::")) [] (lit "::" ++ name ++ b2 ++ Z') [] (name ++ b2 ++ Z')); [constructor|reflexivity|constructor|now apply ident_nws|]. apply tag_exact.
        * cbn [app]. apply opt_no. unfold pbind at 1. pose proof (pws_ident [] name b2 Z' Hname ltac:(constructor) Hb2 HZ1 HZ2) as I. cbn [app] in I. rewrite I. apply pb_perr. apply pws_perr0; auto.
          apply tag_perr1. exact HZ3.
      + eapply mb_lift; [apply (pws_ident [] name b2 Z'); [auto|constructor|auto|auto|auto]|]. eapply mb_ok; [exact HZ4|]. eapply mb_lift; [apply tail_ows|]. destruct args; reflexivity.
    - exists kw, (b1 ++ ttext t). destruct (let_kw kw Hkw) as (K1 & K2). split; auto. split; auto. rewrite <- !app_assoc. split; [apply apart_id; auto; apply ttext_ne, Ht|]. eexists. split; [exact K2|].
      unfold let_parse. eapply mb_lift; [now apply kw_ows|]. eapply mb_lift; [apply let_set_ok; [auto|auto|apply Ha|apply (ttext_ws lc), Ht|apply apart_id; auto; apply ttext_ne, Ht]|].
      eapply mcut_ok. eapply mb_ok; [apply (mws_tparse s [] t b'); [auto|constructor|auto|apply tail_ts]|]. eapply mb_ok.
      + assert (N : is_perr (pws (pchar 61) (tail m' r))) by (apply pws_perr0; [apply tail_ws|]; apply char_no_perr, tail_chr; cbn; tauto).
        destruct N as (x & y & N). eapply mopt_no. unfold mbind at 1, lift at 1. rewrite N. reflexivity.
      + eapply mb_lift; [apply tail_ows|]. reflexivity.
    - exists kw, (b1 ++ ttext t ++ b2 ++ lit "=" ++ b3 ++ text e). destruct (let_kw kw Hkw) as (K1 & K2). split; auto. split; auto. rewrite <- !app_assoc. split; [apply apart_id; auto; apply ttext_ne, Ht|]. eexists. split; [exact K2|].
      unfold let_parse. eapply mb_lift; [now apply kw_ows|]. eapply mb_lift; [apply let_set_ok; [auto|auto|apply Ha|apply (ttext_ws lc), Ht|apply apart_id; auto; apply ttext_ne, Ht]|].
      eapply mcut_ok. eapply mb_ok; [apply (mws_tparse s [] t b2); [auto|constructor|auto|apply ts_any, ts_stop; cbn; tauto]|]. eapply mb_ok.
      + eapply mopt_ok. eapply mb_lift; [apply (pws_char 61 [] b3); [constructor|auto|eapply text_ws; eauto|reflexivity]|].
        apply (mws_eparse lc s [] e b' (tail m' r)); [auto|constructor|auto|apply tail_ends2].
      + eapply mb_lift; [apply tail_ows|]. reflexivity.
    - exists (lit "extends"), (b1 ++ lit """" ++ p ++ lit """"). split; auto. split; [repeat split; try discriminate; repeat constructor|]. rewrite <- !app_assoc. split; [apply blanks_id; auto; reflexivity|].
      eexists. split; [reflexivity|]. unfold lift, extends_parse. apply pair_equal_spec. split; auto.
      apply (phead_step (lit "extends") None b b1); [repeat split; try discriminate; repeat constructor|auto|auto|reflexivity|apply blanks_id; auto; reflexivity|].
      eapply (pb_ok _ _ _ (be ++ r) (p, None)); [|reflexivity]. apply cut_ok. eapply pb_ok; [apply (pws_quoted [] p b' (tail None r)); [auto|constructor|auto|apply tail_ws]|]. eapply pb_ok; [apply tail_ows|]. reflexivity.
    - exists (lit "include"), (b1 ++ lit """" ++ p ++ lit """"). split; auto. split; [repeat split; try discriminate; repeat constructor|]. rewrite <- !app_assoc. split; [apply blanks_id; auto; reflexivity|].
      eexists. split; [reflexivity|]. unfold lift, include_parse. apply pair_equal_spec. split; auto.
      apply (phead_step (lit "include") m b b1); [repeat split; try discriminate; repeat constructor|auto|auto|reflexivity|apply blanks_id; auto; reflexivity|].
      apply cut_ok. eapply pb_ok; [apply (pws_quoted [] p b' (tail m' r)); [auto|constructor|auto|apply tail_ws]|]. eapply pb_ok; [apply tail_ows|]. reflexivity.
    - exists (lit "import"), (b1 ++ lit """" ++ p ++ lit """" ++ b2 ++ lit "as" ++ b3 ++ sc). split; auto. split; [repeat split; try discriminate; repeat constructor|]. rewrite <- !app_assoc. split; [apply blanks_id; auto; reflexivity|].
      eexists. split; [reflexivity|]. unfold lift, import_parse. apply pair_equal_spec. split; auto.
      apply (phead_step (lit "import") m b b1); [repeat split; try discriminate; repeat constructor|auto|auto|reflexivity|apply blanks_id; auto; reflexivity|].
      apply cut_ok. eapply pb_ok; [apply (pws_quoted [] p b2 (lit "as" ++ b3 ++ sc ++ b' ++ tail m' r)); [auto|constructor|auto|reflexivity]|].
      eapply pb_ok; [apply (kw_step (lit "as") [] b3 (sc ++ b' ++ tail m' r)); [repeat split; try discriminate; repeat constructor|constructor|apply Hb3|now apply ident_nws|apply ws_id; apply Hb3]|].
      apply cut_ok. eapply pb_ok; [apply (pws_ident [] sc b' (tail m' r)); [auto|constructor|auto|apply tail_ws|apply blanks_id; auto; apply tail_id]|]. eapply pb_ok; [apply tail_ows|]. reflexivity.
    - exists (lit "break"), []. split; [reflexivity|]. split; [repeat split; try discriminate; repeat constructor|]. split; [cbn [app]; apply blanks_id; auto; apply tail_id|].
      eexists. split; [reflexivity|]. cbn [app]. unfold brk. rewrite (phead_step (lit "break") m b b' (tail m' r) _ (POk (be ++ r) {| ws_l := m; ws_r := m' |}));
        [|repeat split; try discriminate; repeat constructor|auto|auto|apply tail_ws|apply blanks_id; auto; apply tail_id|eapply pb_ok; [apply tail_ows|reflexivity]].
      destruct (loop_depth s) eqn:E; [destruct (Hil eq_refl eq_refl)|reflexivity].
    - exists (lit "continue"), []. split; [reflexivity|]. split; [repeat split; try discriminate; repeat constructor|]. split; [cbn [app]; apply blanks_id; auto; apply tail_id|].
      eexists. split; [reflexivity|]. cbn [app]. unfold brk. rewrite (phead_step (lit "continue") m b b' (tail m' r) _ (POk (be ++ r) {| ws_l := m; ws_r := m' |}));
        [|repeat split; try discriminate; repeat constructor|auto|auto|apply tail_ws|apply blanks_id; auto; apply tail_id|eapply pb_ok; [apply tail_ows|reflexivity]].
      destruct (loop_depth s) eqn:E; [destruct (Hil eq_refl eq_refl)|reflexivity].
  Qed.

  (** ** Tags with a body *)
  Lemma end_name_ok name kind b x X : x = name -> ident name -> blanks b -> nohd is_ws X -> nohd id_tail (b ++ X) -> opt (end_name name kind) (name ++ b ++ X) = POk X (Some x).
  Proof.
    clear lc dbg sy Hsy Hbe. intros -> Hn Hb HX Hi. apply opt_ok. unfold end_name. eapply pb_ok; [apply (pws_ident [] name b X); [auto|constructor|auto|auto|auto]|]. unfold check_end_name. now rewrite str_eqb_refl.
  Qed.
  Lemma end_name_no name kind m r : opt (end_name name kind) (tail m r) = POk (tail m r) None.
  Proof using Hbe. clear Hsy lc dbg. apply opt_no. unfold end_name. apply pb_perr. apply pws_perr0; [apply tail_ws|apply PrecFacts.identifier_no, tail_start]. Qed.
  Lemma named_end {B} kw name kind e m b b' m' r (k : option handling -> option handling -> M B) s x : kw_ok kw -> ident name -> end_text kw name e -> blanks b -> blanks b' ->
    k m m' s (be ++ r) = x ->
    (forall y e' m', x <> (PErr e' m', y)) ->
    (lift (block_start_ sy) ;;-- (w3 <-- lift ows ;; (lift (pws (keyword kw)) ;;-- mcut (lift (opt (end_name name kind)) ;;-- (w4 <-- lift ows ;; k w3 w4))))) s
      (btag m b e b' m' ++ r) = x.
  Proof using Hbe.
    intros Hk Hn He Hb Hb' E Hx. unfold WriteSpec.btag. rewrite <- !app_assoc. eapply mb_lift; [apply bs_tag|]. change (mark m' ++ be ++ r) with (tail m' r).
    assert (C : forall X, (lift (opt (end_name name kind)) ;;-- (w4 <-- lift ows ;; k m w4)) s X = x -> mcut (lift (opt (end_name name kind)) ;;-- (w4 <-- lift ows ;; k m w4)) s X = x).
    { intros X EX. unfold mcut. rewrite EX. destruct x as [[]]; auto. exfalso. eapply Hx. reflexivity. }
    inversion He as [|b0 Hb0]; subst e.
    - apply head_step; auto; [apply tail_ws|apply blanks_id; auto; apply tail_id|]. apply C. eapply mb_lift; [apply end_name_no|]. eapply mb_lift; [apply tail_ows|]. exact E.
    - rewrite <- !app_assoc. apply head_step; auto; [apply Hb0|now apply ident_nws|apply ws_id; apply Hb0|]. apply C. eapply mb_lift; [apply end_name_ok; [reflexivity|auto|auto|apply tail_ws|apply blanks_id; auto; apply tail_id]|].
      eapply mb_lift; [apply tail_ows|]. exact E.
  Qed.
  Lemma params_read o b X : Forall ident (some_list o) -> blanks b -> nohd is_ws X -> nohd (N.eqb 40) X -> (o = None -> b = []) ->
    opt (pws macro_parameters) (params_text o ++ b ++ X) = POk X o.
  Proof.
    clear lc dbg sy Hsy Hbe. intros Ho Hb HX H4 Hn. destruct o as [l|].
    - apply opt_ok. unfold params_text. rewrite <- !app_assoc. apply (pws_of macro_parameters [] (lit "(" ++ sep_by (lit ", ") l ++ lit ")" ++ b ++ X) b X); [constructor|reflexivity|auto|auto|].
      cbn [some_list] in Ho. set (R := b ++ X). unfold macro_parameters.
      assert (C : chain (fun x : str => x) (fun _ : unit => pmap (fun a => (tt, a)) (pws identifier)) tt l).
      { clear -Ho. induction Ho as [|x l Hx Hl IH]; [constructor|]. apply (ch_cons _ _ tt x l tt); [|exact IH]. intros b s Hb (t & Ht). cbv beta. unfold pmap. replace (b ++ x ++ s) with (b ++ x ++ [] ++ s) by reflexivity.
        rewrite pws_ident; [reflexivity|auto|auto|constructor|destruct Ht as [-> | ->]; reflexivity|destruct Ht as [-> | ->]; reflexivity]. }
      assert (E : is_perr (pmap (fun a => (tt, a)) (pws identifier) (41 :: R))).
      { apply pmap_perr. apply pws_perr0; [reflexivity|]. apply PrecFacts.identifier_no. reflexivity. }
      pose proof (chain_read (fun x : str => x) _ tt l R C E) as K. rewrite map_id in K.
      eapply pb_ok; [apply (pws_char 40 [] [] (sep_by (lit ", ") l ++ lit ")" ++ R)); [constructor|constructor| |reflexivity]|].
      { destruct l as [|x l]; [reflexivity|]. rewrite sep_cons, <- app_assoc. inversion Ho; subst. now apply ident_nws. }
      eapply pb_ok; [exact K|]. eapply pb_ok; [apply opt_no; apply (comma_no 41); cbn; tauto|]. reflexivity.
    - rewrite (Hn eq_refl). cbn [params_text app]. apply opt_no. apply pws_perr0; auto. unfold macro_parameters. apply pb_perr. apply pws_perr0; auto. now apply char_no_perr.
  Qed.
  (** Filters in a chain. *)
  Definition after_filters (fs : list (str * option (list expr))) (b : str) (T : str) : str := concat (map (fun f => lit "|" ++ filter_text f) fs) ++ b ++ T.
  Lemma filter_step s f fs b m r : filter_fits lc (level s) f -> blanks b -> (level s < 128)%nat ->
    let args := expr_arguments lc (level s) false in
    exists i1 X, pws identifier (filter_text f ++ after_filters fs b (tail m r)) = POk i1 (fst f) /\ (X = after_filters fs b (tail m r) \/ fs = [] /\ X = tail m r) /\
      ((exists l, snd f = Some l /\ args i1 = POk X l) \/ snd f = None /\ is_perr (args i1) /\ X = i1).
  Proof using Hbe.
    clear Hsy dbg. intros (Hf & Hroom & Hl) Hb Hlev args. unfold filter_text. rewrite <- app_assoc. destruct (snd f) as [l|] eqn:Ef.
    - exists (args_text l ++ after_filters fs b (tail m r)), (after_filters fs b (tail m r)). split; [|split; [now left|]].
      + apply (pws_ident [] (fst f) [] (args_text l ++ after_filters fs b (tail m r))); [auto|constructor|constructor|reflexivity|reflexivity].
      + left. exists l. split; auto. apply filter_args; [cbn in Hroom; lia|exact Hl].
    - cbn [opt_args app]. assert (N : forall i, nohd is_ws i -> nohd (N.eqb 40) i -> is_perr (args i)).
      { intros i H1 H2. destruct (eargs_none lc false s i []) as (e & x & E); [auto|constructor|auto|auto|]. unfold eargs, with_level in E. injection E as E. exists e, x. exact E. }
      destruct fs as [|f2 fs].
      + exists (tail m r), (tail m r). split; [|split; [now right|right]].
        * apply (pws_ident [] (fst f) b (tail m r)); [auto|constructor|auto|apply tail_ws|apply blanks_id; auto; apply tail_id].
        * repeat split. apply N; [apply tail_ws|apply tail_chr; cbn; tauto].
      + set (A := after_filters (f2 :: fs) b (tail m r)). exists A, A. split; [|split; [now left|right]].
        * apply (pws_ident [] (fst f) [] A); [auto|constructor|constructor|reflexivity|reflexivity].
        * repeat split. apply N; reflexivity.
  Qed.
  Lemma filter_steps s fs b m r : Forall (filter_fits lc (level s)) fs -> blanks b -> (level s < 128)%nat ->
    forall X, X = after_filters fs b (tail m r) \/ fs = [] /\ X = tail m r ->
    exists R, steps (filter (expr_arguments lc (level s) false)) X fs R /\ (R = b ++ tail m r \/ R = tail m r).
  Proof using Hbe.
    clear Hsy dbg. intros Hfs Hb Hl. induction Hfs as [|f fs Hf Hfs IH]; intros X HX.
    - exists X. split; [constructor|]. destruct HX as [->|[_ ->]]; [left; reflexivity|now right].
    - destruct HX as [->|[? _]]; [|discriminate]. destruct (filter_step s f fs b m r Hf Hb Hl) as (i1 & Y & E1 & HY & HA). destruct (IH Y HY) as (R & HR & HR2). exists R. split; auto.
      unfold after_filters in *. cbn [map concat]. rewrite <- !app_assoc.
      econstructor; [|shelve|exact HR]. unfold filter. eapply pb_ok; [reflexivity|]. eapply pb_ok; [exact E1|].
      eapply (pb_ok _ _ _ Y (snd f)); [|destruct f; reflexivity]. destruct HA as [(l & -> & E)|(-> & E & ->)]; [now apply opt_ok|now apply opt_no].
      Unshelve. cbn [app]. change (lit "|" ++ ?x) with (124 :: x). cbn [length]. rewrite app_length.
      destruct HY as [->|[-> ->]]; [lia|]. cbn [map concat app]. rewrite app_length. lia.
  Qed.
  Lemma body_read many s m1 b1 body b2 m2 mk ns t m3 b3 e b4 m4 rest : blanks b1 -> blanks b2 -> blanks b3 -> blanks b4 -> (level s <= 128)%nat -> body_text lc (level s) mk body e ->
    many s (t ++ btag m3 b3 e b4 m4 ++ rest) = (POk (btag m3 b3 e b4 m4 ++ rest) ns, s) ->
    exists kw Y, body = kw ++ Y /\ kw_ok kw /\ nohd id_tail (Y ++ b2 ++ tail m2 (t ++ btag m3 b3 e b4 m4 ++ rest)) /\ exists f, block_kind lc dbg sy many kw = Some f /\
      f s (mark m1 ++ b1 ++ kw ++ Y ++ b2 ++ tail m2 (t ++ btag m3 b3 e b4 m4 ++ rest)) = (POk (be ++ rest) (mk {| ws_l := m1; ws_r := m2 |} ns {| ws_l := m3; ws_r := m4 |}), s).
  Proof using Hbe.
    clear Hsy. intros Hb1 Hb2 Hb3 Hb4 Hlv H HM. set (E := btag m3 b3 e b4 m4 ++ rest) in *. inversion H as [b0 name e' Hb0 Hn He|b0 name b5 params e' Hb0 Hn Hs Hb5 Hp Hnone He|b0 f fs Hb0 Hf Hfs]; subst e.
    - exists (lit "block"), (b0 ++ name). split; auto. split; [repeat split; try discriminate; repeat constructor|]. rewrite <- !app_assoc. split; [apply ws_id; apply Hb0|]. eexists. split; [reflexivity|].
      unfold blockdef_parse. eapply head_step; [repeat split; try discriminate; repeat constructor|auto|apply Hb0|now apply ident_nws|apply ws_id; apply Hb0|].
      eapply (mb_ok _ _ _ _ (t ++ E) (name, m2) s).
      + apply mcut_ok. unfold lift. apply pair_equal_spec. split; auto. eapply pb_ok; [apply (pws_ident [] name b2 (tail m2 (t ++ E))); [auto|constructor|auto|apply tail_ws|apply blanks_id; auto; apply tail_id]|].
        eapply pb_ok; [apply tail_ows|]. eapply pb_ok; [apply be_tag|]. reflexivity.
      + cbv beta iota. apply mcut_ok. eapply mb_ok; [exact HM|]. apply mcut_ok. unfold E.
        apply (named_end (lit "endblock") name (lit "block") e' m3 b3 b4 m4 rest (fun w3 w4 => mret (NBlockDef {| ws_l := m1; ws_r := m2 |} name ns {| ws_l := w3; ws_r := w4 |}))); auto; [repeat split; try discriminate; repeat constructor|discriminate].
    - exists (lit "macro"), (b0 ++ name ++ b5 ++ params_text params). split; auto. split; [repeat split; try discriminate; repeat constructor|]. rewrite <- !app_assoc. split; [apply ws_id; apply Hb0|]. eexists. split; [reflexivity|].
      unfold macro_parse. eapply (mb_ok _ _ _ _ (t ++ E) (m1, name, params, m2) s).
      + unfold lift. apply pair_equal_spec. split; auto. apply (phead_step (lit "macro") m1 b1 b0); [repeat split; try discriminate; repeat constructor|auto|apply Hb0|now apply ident_nws|apply ws_id; apply Hb0|].
        apply cut_ok. assert (P : exists b' X b'', blanks b' /\ blanks b'' /\ b5 ++ params_text params ++ b2 ++ tail m2 (t ++ E) = b' ++ X /\ nohd is_ws X /\ nohd id_tail (b' ++ X) /\ X = params_text params ++ b'' ++ tail m2 (t ++ E) /\ (params = None -> b'' = [])).
        { destruct params as [l|].
          - exists b5, (params_text (Some l) ++ b2 ++ tail m2 (t ++ E)), b2. repeat split; auto; [|discriminate]. apply blanks_id; auto. reflexivity.
          - rewrite (Hnone eq_refl). exists b2, (tail m2 (t ++ E)), []. repeat split; auto; [constructor|apply tail_ws|apply blanks_id; auto; apply tail_id]. }
        destruct P as (b' & X & b'' & Hb' & Hb'' & -> & HX & HiX & EX & HN).
        eapply pb_ok; [apply (pws_ident [] name b' X); [auto|constructor|auto|auto|auto]|]. rewrite EX.
        eapply pb_ok; [apply params_read; [auto|auto|apply tail_ws|apply tail_chr; cbn; tauto|auto]|]. eapply pb_ok; [apply tail_ows|]. eapply pb_ok; [apply be_tag|]. reflexivity.
      + cbv beta iota. destruct (str_eqb name (lit "super")) eqn:Es; [apply str_eqb_eq in Es; congruence|]. apply mcut_ok. eapply mb_ok; [exact HM|]. apply mcut_ok. unfold E.
        apply (named_end (lit "endmacro") name (lit "macro") e' m3 b3 b4 m4 rest (fun w3 w4 => mret (NMacro {| ws_l := m1; ws_r := m2 |} name (some_list params) ns {| ws_l := w3; ws_r := w4 |}))); auto; [repeat split; try discriminate; repeat constructor|discriminate].
    - exists (lit "filter"), (b0 ++ filter_text f ++ concat (map (fun f => lit "|" ++ filter_text f) fs)). split; auto. split; [repeat split; try discriminate; repeat constructor|]. rewrite <- !app_assoc. split; [apply ws_id; apply Hb0|]. eexists. split; [reflexivity|].
      change (concat (map (fun f => lit "|" ++ filter_text f) fs) ++ b2 ++ tail m2 (t ++ E)) with (after_filters fs b2 (tail m2 (t ++ E))).
      pose proof Hf as (Hid & Hroom & _). assert (Hlev : (level s < 128)%nat) by (revert Hroom; unfold room; destruct (snd f); lia).
      destruct (filter_step s f fs b2 m2 (t ++ E) Hf Hb2 Hlev) as (i1 & X & E1 & HX & HA). destruct (filter_steps s fs b2 m2 (t ++ E) Hfs Hb2 Hlev X HX) as (R & HR & HR2).
      unfold filter_block_parse. eapply head_step; [repeat split; try discriminate; repeat constructor|auto|apply Hb0|unfold filter_text; rewrite <- app_assoc; now apply ident_nws|apply ws_id; apply Hb0|].
      eapply (mb_ok _ _ _ _ (t ++ E) (fst f, snd f, fs, m2) s).
      + apply mcut_ok. eapply mb_lift; [exact E1|]. eapply (mb_ok _ _ _ _ X (snd f) s).
        { destruct HA as [(l & -> & EA)|(-> & (x & y & EA) & ->)]; [eapply mopt_ok|eapply mopt_no]; unfold eargs, with_level; rewrite EA; reflexivity. }
        eapply (mb_ok _ _ _ _ R fs s).
        { unfold with_level. apply pair_equal_spec. split; auto. apply many0_steps; auto. unfold filter. apply pb_perr. apply char_no_perr.
          destruct HR2 as [->| ->]; [|apply tail_chr; cbn; tauto]. apply nohd_blanks; auto; [|apply tail_chr; cbn; tauto]. clear. intros c. unfold is_ws. lia. }
        eapply (mb_ok _ _ _ _ (tail m2 (t ++ E)) tt s).
        { unfold lift. apply pair_equal_spec. split; auto. destruct HR2 as [->| ->].
          - apply (pws_of (pret tt) b2 (tail m2 (t ++ E)) [] (tail m2 (t ++ E)) tt); [auto|apply tail_ws|constructor|apply tail_ws|reflexivity].
          - apply (pws_of (pret tt) [] (tail m2 (t ++ E)) [] (tail m2 (t ++ E)) tt); [constructor|apply tail_ws|constructor|apply tail_ws|reflexivity]. }
        eapply mb_lift; [apply tail_ows|]. eapply mb_lift; [apply be_tag|]. reflexivity.
      + cbv beta iota. rewrite filter_fold. change (match snd f with Some l => l | None => [] end) with (some_list (snd f)). destruct (filter_chain (fst f) (some_list (snd f)) fs) as [n l] eqn:EC.
        apply mcut_ok. eapply mb_ok; [exact HM|]. apply mcut_ok. unfold E.
        apply (end_step (lit "endfilter") m3 b3 b4 m4 rest (fun w3 w4 => mret (NFilterBlock {| ws_l := m1; ws_r := m2 |} n l ns {| ws_l := w3; ws_r := w4 |}))); auto. repeat split; try discriminate; repeat constructor.
  Qed.
End Tag.
