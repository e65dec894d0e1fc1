(** * Every written template is read back as its tree. *)
From Verif Require Import Base Config ConfigFacts Nom Ws Ast Lex ParseExpr ParseNode NomFacts LexFacts LitSpec LitFacts ParseSpec TreeSpec ExprFacts WsFacts NodeFacts TplFacts TextFacts CommentFacts PrecSpec LitComplete SimExpr SimFacts PrecFacts PrecRound PrecTop WriteSpec WriteTarget WriteExpr WriteTag.
From Coq Require Import Lia ZArith ZifyBool ZifyNat ZifyN.
Local Open Scope N_scope.

(** ** Text *)
Definition wsp (s : str) : Prop := Forall (fun c => is_ws c = true) s.
Lemma ws_unique : forall x y (u w : str), wsp x -> wsp y -> nohd is_ws u -> nohd is_ws w -> x ++ u = y ++ w -> x = y /\ u = w.
Proof.
  induction x as [|p x IH]; intros [|q y] u w Hx Hy Hu Hw E; cbn in *; auto.
  - subst u. cbn in Hu. inversion Hy; congruence.
  - subst w. cbn in Hw. inversion Hx; congruence.
  - injection E as -> E. inversion Hx; inversion Hy; subst. destruct (IH y u w) as [-> ->]; auto.
Qed.
Lemma lit_unique a v b a' v' b' : wsp a -> wsp b -> wsp a' -> wsp b' -> (v = [] -> b = []) -> (v' = [] -> b' = []) ->
  nohd is_ws v -> nohd is_ws v' -> nohd is_ws (rev v) -> nohd is_ws (rev v') -> a ++ v ++ b = a' ++ v' ++ b' -> a = a' /\ v = v' /\ b = b'.
Proof.
  intros Ha Hb Ha' Hb' Nv Nv' Hv Hv' Hr Hr' E.
  assert (Q : forall v b : str, (v = [] -> b = []) -> nohd is_ws v -> nohd is_ws (v ++ b)) by (intros [|c w] d K; [now rewrite K|auto]).
  destruct (ws_unique a a' (v ++ b) (v' ++ b')) as [-> E2]; auto. split; auto.
  assert (E3 : rev b ++ rev v = rev b' ++ rev v') by (rewrite <- !rev_app_distr; now rewrite E2).
  destruct (ws_unique (rev b) (rev b') (rev v) (rev v')) as [Eb Ev]; auto; [now apply Forall_rev..|].
  apply (f_equal (@rev N)) in Eb, Ev. rewrite !rev_involutive in *. auto.
Qed.
Lemma blank_wsp s : blank s -> wsp s.
Proof. apply Forall_impl. intros c. unfold is_ws. lia. Qed.
Lemma not_blank c : ~ blank [c] -> is_ws c = false.
Proof. intros H. destruct (is_ws c) eqn:E; auto. destruct H. constructor; [revert E; unfold is_ws; lia|constructor]. Qed.
Lemma split_text l : wf_literal l -> split_ws_parts (lws l ++ lval l ++ rws l) = l.
Proof.
  intros (H1 & H2 & H3 & H4 & H5). destruct (split_correct (lws l ++ lval l ++ rws l)) as (E & B1 & B2 & B3 & B4 & B5).
  destruct (split_ws_parts (lws l ++ lval l ++ rws l)) as [a v b]. cbn [lws lval rws] in *. destruct l as [a' v' b']. cbn [lws lval rws] in *.
  assert (R : forall v : str, (forall c t, v = t ++ [c] -> is_ws c = false) -> nohd is_ws (rev v)).
  { intros w K. destruct (rev w) as [|c t] eqn:Er; [exact I|]. cbn. apply (K c (rev t)). rewrite <- (rev_involutive w), Er. reflexivity. }
  destruct (lit_unique a' v' b' a v b) as (-> & -> & ->); auto.
  - now apply blank_wsp.
  - now apply blank_wsp.
  - destruct v'; [exact I|]. now apply not_blank.
  - destruct v as [|c v]; [exact I|]. exact (B4 c v eq_refl).
  - apply R. intros c t ->. rewrite ConfigFacts.last_opt_app in H5. now apply not_blank.
Qed.
Lemma no_mark_nohd s y : no_mark s -> s <> [] -> nohd is_mark (s ++ y).
Proof. destruct s as [|c s]; [congruence|]. intros H _. cbn in *. unfold is_mark. lia. Qed.
Lemma ends_last m t : ends_in m t -> last_mark t = m.
Proof.
  unfold last_mark. destruct m as [h|]; cbn.
  - intros (u & ->). destruct h; cbn [mark]; rewrite (ConfigFacts.last_opt_app u); reflexivity.
  - intros H. destruct (last_opt t) as [c|] eqn:E; auto. destruct (rev t) as [|d u] eqn:Er.
    + apply (f_equal (@rev N)) in Er. rewrite rev_involutive in Er. subst t. discriminate.
    + apply (f_equal (@rev N)) in Er. rewrite rev_involutive in Er. cbn [rev] in Er. subst t. rewrite ConfigFacts.last_opt_app in E. injection E as ->. specialize (H (rev u) c eq_refl).
      destruct (N.eqb_spec c 45) as [->|]; [destruct H; cbn; tauto|]. destruct (N.eqb_spec c 43) as [->|]; [destruct H; cbn; tauto|]. destruct (N.eqb_spec c 126) as [->|]; [destruct H; cbn; tauto|]. reflexivity.
Qed.

Scheme writes_ind2 := Minimality for writes Sort Prop
  with writes_all_ind2 := Minimality for writes_all Sort Prop
  with writes_branches_ind2 := Minimality for writes_branches Sort Prop
  with writes_arms_ind2 := Minimality for writes_arms Sort Prop.
Lemma mor_l {A} (p q : M A) s i r a s' : p s i = (POk r a, s') -> mor p q s i = (POk r a, s').
Proof. intros E. unfold mor. now rewrite E. Qed.

Section Round.
  Variables (lc : N -> bool) (dbg : str -> str) (sy : syntax).
  Hypothesis Hsy : syntax_valid sy.
  Hypothesis Hbe : block_end_ok (block_end sy).
  Hypothesis Hee : plain_end (expr_end sy).
  Notation bs := (block_start sy).
  Notation be := (block_end sy).
  Notation btag := (btag sy).
  Notation tail := (tail sy).
  Notation stops := (stops lc dbg sy).
  Notation node_one := (node_one lc dbg sy).
  Notation node_many := (node_many lc dbg sy).
  Notation mo := (mo lc dbg sy).

  Lemma lit_read many s l t rest : wf_literal l -> t = lws l ++ lval l ++ rws l -> t <> [] ->
    (forall u v, t = u ++ v -> v <> [] -> ~ opening sy (v ++ rest)) -> rest = [] \/ opening sy rest -> node_one many s (t ++ rest) = (POk rest (NLit l), s).
  Proof using Hsy.
    clear Hbe Hee. intros Hl Et Ht Hno Hr. unfold ParseNode.node_one, mor, lift, pmap.
    assert (E : lit_parse sy (t ++ rest) = POk rest l); [|now rewrite E].
    set (p := tag bs <|> tag (comment_start sy) <|> tag (expr_start sy)).
    assert (N : forall v, ~ opening sy v -> is_perr (p v)).
    { intros v Hv. unfold p, por. rewrite !tag_fail; [exact (perr_i _ _)|intros x ->; apply Hv..].
      - exists (expr_start sy), x. cbn. tauto.
      - exists (comment_start sy), x. cbn. tauto.
      - exists bs, x. cbn. tauto. }
    unfold lit_parse. destruct (t ++ rest) as [|c i] eqn:Ei; [destruct t; [congruence|discriminate]|]. rewrite <- Ei. clear c i Ei. fold p. destruct Hr as [->|Hr].
    - rewrite (skip_till_none p).
      + rewrite app_nil_r. rewrite Et. now rewrite split_text.
      + intros a b Eb. rewrite app_nil_r in Eb. destruct b as [|d b].
        * apply N. intros (x & y & Hd & E). pose proof (valid_nonempty sy Hsy) as (V1 & V2 & V3 & V4 & V5 & V6). cbn in Hd, V1, V2, V3, V4, V5, V6. destruct x; [intuition congruence|discriminate].
        * apply N. rewrite <- (app_nil_r (d :: b)). eapply Hno; [exact Eb|discriminate].
    - assert (O : exists j v, p rest = POk j v).
      { destruct Hr as (d & x & Hd & ->). unfold p, por. destruct (tag_cases bs (d ++ x)) as [(y & _ & ->)|[F1 ->]]; [eauto|].
        destruct (tag_cases (comment_start sy) (d ++ x)) as [(y & _ & ->)|[F2 ->]]; [eauto|]. destruct (tag_cases (expr_start sy) (d ++ x)) as [(y & _ & ->)|[F3 ->]]; [eauto|].
        exfalso. destruct Hd as [<-|[<-|[<-|[]]]]; [exact (F1 x eq_refl)|exact (F2 x eq_refl)|exact (F3 x eq_refl)]. }
      destruct O as (j & v & O). rewrite (skip_till_at p t rest j v); [|intros a b E Hb; apply N; eapply Hno; eauto|exact O].
      rewrite before_app. destruct t as [|c t]; [congruence|]. rewrite Et. now rewrite split_text.
  Qed.
  Lemma btag_ne m b body b' m' y : (length y < length (btag m b body b' m' ++ y))%nat.
  Proof using Hsy. clear Hbe Hee lc dbg. pose proof (bs_ne sy Hsy) as N. unfold WriteSpec.btag. rewrite !app_length. destruct bs; [congruence|]. cbn [length]. lia. Qed.
  Lemma btag_eq m b body b' m' y : btag m b body b' m' ++ y = bs ++ mark m ++ b ++ body ++ b' ++ tail m' y.
  Proof. clear Hsy Hbe Hee lc dbg. unfold WriteSpec.btag, WriteTag.tail. now rewrite <- !app_assoc. Qed.
  Ltac kwok := repeat split; try discriminate; repeat constructor.
  Lemma kw_stops kw m b Y b' m' y : kw_ok kw -> blanks b -> nohd id_tail (Y ++ b' ++ tail m' y) -> (forall many, block_kind lc dbg sy many kw = None) -> stops (btag m b (kw ++ Y) b' m' ++ y).
  Proof using Hsy. clear Hbe Hee. intros Hk Hb HY Hn. rewrite btag_eq, <- app_assoc. now apply stops_tag. Qed.
  Lemma plain_stops kw m b b' m' y : kw_ok kw -> blanks b -> blanks b' -> (forall many, block_kind lc dbg sy many kw = None) -> stops (btag m b kw b' m' ++ y).
  Proof using Hsy Hbe. clear Hee. intros Hk Hb Hb' Hn. rewrite <- (app_nil_r kw). apply kw_stops; auto. cbn [app]. apply blanks_id; auto. now apply tail_id. Qed.
  Lemma body_stops k mk body e m b b' m' y : body_text lc k mk body e -> blanks b -> blanks b' -> stops (btag m b e b' m' ++ y).
  Proof using Hsy Hbe.
    clear Hee. intros H Hb Hb'. inversion H as [b0 name e' Hb0 Hn He|b0 name b5 params e' Hb0 Hn Hs Hb5 Hp Hnone He|b0 f fs Hb0 Hf Hfs]; subst.
    - inversion He as [|b2 Hb2]; subst; [apply plain_stops; auto; kwok|]. apply kw_stops; auto; [kwok|]. rewrite <- !app_assoc. apply ws_id; apply Hb2.
    - inversion He as [|b2 Hb2]; subst; [apply plain_stops; auto; kwok|]. apply kw_stops; auto; [kwok|]. rewrite <- !app_assoc. apply ws_id; apply Hb2.
    - apply plain_stops; auto. kwok.
  Qed.

  (** ** Conditions *)
  Lemma cond_tag many s m b body b' m' c ns t R : branch_text lc (level s) c body -> blanks b -> blanks b' -> many s (t ++ R) = (POk R ns, s) ->
    cond_parse lc sy many s (btag m b body b' m' ++ t ++ R) = (POk R (Cond {| ws_l := m; ws_r := m' |} c ns), s).
  Proof using Hbe.
    clear Hsy Hee dbg. intros H Hb Hb' HM. rewrite btag_eq. unfold cond_parse. eapply mb_lift; [apply bs_tag|].
    assert (Rest : forall w1 c' , (w2 <-- lift ows ;; (lift (cut (block_end_ sy)) ;;-- (ns <-- mcut many ;; mret (Cond {| ws_l := w1; ws_r := w2 |} c' ns)))) s (tail m' (t ++ R)) = (POk R (Cond {| ws_l := w1; ws_r := m' |} c' ns), s)).
    { intros. eapply mb_lift; [now apply tail_ows|]. eapply mb_lift; [apply cut_ok, be_tag|]. eapply mb_ok; [apply mcut_ok; exact HM|]. reflexivity. }
    inversion H as [|b1 c' ct Ha Hc|b0 b1 c' ct Hb0 Ha Hc]; subst.
    - eapply mb_lift; [apply kw_ows; [kwok|auto]|]. eapply (mb_ok _ _ _ _ (tail m' (t ++ R)) None s); [|apply Rest]. apply mor_l.
      eapply mb_lift; [apply kw_step; [kwok|auto|auto|now apply tail_ws|apply blanks_id; auto; now apply tail_id]|].
      destruct (kw_tail sy Hbe (lit "if") m' (t ++ R)) as (x & y & E). eapply mopt_no. unfold cond_test_parse, mbind at 1, lift at 1. rewrite E. reflexivity.
    - rewrite <- !app_assoc. destruct (test_ne lc _ _ _ Hc) as (N1 & N2). eapply mb_lift; [apply kw_ows; [kwok|auto]|]. eapply (mb_ok _ _ _ _ (tail m' (t ++ R)) (Some c') s); [|apply Rest]. unfold mor.
      destruct (kw_other (lit "else") (lit "elif") b (b1 ++ ct ++ b' ++ tail m' (t ++ R))) as (x & y & E); [kwok|auto|now apply apart_id|discriminate|].
      unfold mbind at 1, lift at 1. rewrite E. eapply mb_lift; [apply kw_step; [kwok|auto|apply Ha|apply N2|now apply apart_id]|]. apply mcut_ok. unfold mmap. rewrite (test_read lc sy Hbe s c' ct b' m' (t ++ R)) by auto. reflexivity.
    - rewrite <- !app_assoc. destruct (test_ne lc _ _ _ Hc) as (N1 & N2). eapply mb_lift; [apply kw_ows; [kwok|auto]|]. eapply (mb_ok _ _ _ _ (tail m' (t ++ R)) (Some c') s); [|apply Rest]. apply mor_l.
      eapply mb_lift; [apply (kw_step (lit "else") b b0 (lit "if" ++ b1 ++ ct ++ b' ++ tail m' (t ++ R))); [kwok|auto|apply Hb0|reflexivity|apply ws_id; apply Hb0]|].
      eapply mopt_ok. unfold cond_test_parse. eapply mb_lift; [apply (kw_step (lit "if") [] b1); [kwok|constructor|apply Ha|apply N2|now apply apart_id]|]. apply mcut_ok. now apply test_read.
  Qed.
  Lemma cond_no many s m b b' m' y : blanks b -> blanks b' -> exists e x, cond_parse lc sy many s (btag m b (lit "endif") b' m' ++ y) = (PErr e x, s).
  Proof using Hbe.
    clear Hsy Hee dbg. intros Hb Hb'. rewrite btag_eq. unfold cond_parse, mbind at 1, lift at 1. rewrite bs_tag. unfold mbind at 1, lift at 1. rewrite kw_ows by (auto; kwok). unfold mbind at 1, mor.
    assert (Z : nohd id_tail (b' ++ tail m' y)) by (apply blanks_id; auto; now apply tail_id).
    destruct (kw_other (lit "else") (lit "endif") b (b' ++ tail m' y)) as (x & z & E); [kwok|auto|auto|discriminate|]. unfold mbind at 1, lift at 1. rewrite E.
    destruct (kw_other (lit "elif") (lit "endif") b (b' ++ tail m' y)) as (x' & z' & E'); [kwok|auto|auto|discriminate|]. unfold mbind at 1, lift at 1. rewrite E'. eauto.
  Qed.
  Lemma branch_stops k c body m b b' m' y : branch_text lc k c body -> blanks b -> blanks b' -> stops (btag m b body b' m' ++ y).
  Proof using Hsy Hbe.
    clear Hee. intros H Hb Hb'. inversion H as [|b1 c' ct Ha Hc|b0 b1 c' ct Hb0 Ha Hc]; subst.
    - apply plain_stops; auto. kwok.
    - apply kw_stops; auto; [kwok|]. rewrite <- !app_assoc. apply apart_id; auto. eapply test_ne; eauto.
    - apply kw_stops; auto; [kwok|]. rewrite <- !app_assoc. apply ws_id; apply Hb0.
  Qed.
  Lemma if_tag many s m1 b1 b0 ct c b2 m2 ns t brs tb m3 b3 b4 m4 rest : blanks b1 -> blanks b2 -> blanks b3 -> blanks b4 -> apart b0 ct -> test_text lc (level s) c ct ->
    let E := btag m3 b3 (lit "endif") b4 m4 ++ rest in
    many s (t ++ tb ++ E) = (POk (tb ++ E) ns, s) -> mmany0 (cond_parse lc sy many) s (tb ++ E) = (POk E brs, s) ->
    if_parse lc sy many s (mark m1 ++ b1 ++ lit "if" ++ b0 ++ ct ++ b2 ++ tail m2 (t ++ tb ++ E)) =
      (POk (be ++ rest) (NIf {| ws_l := m3; ws_r := m4 |} (Cond {| ws_l := m1; ws_r := m2 |} (Some c) ns :: brs)), s).
  Proof using Hbe.
    clear Hsy Hee dbg. intros Hb1 Hb2 Hb3 Hb4 Ha Hc E HM HC. destruct (test_ne lc _ _ _ Hc) as (N1 & N2). unfold if_parse. eapply mb_lift; [apply kw_ows; [kwok|auto]|].
    eapply mb_ok. { unfold cond_test_parse. eapply mb_lift; [apply kw_step; [kwok|auto|apply Ha|apply N2|now apply apart_id]|]. apply mcut_ok. apply test_read; eauto. }
    apply mcut_ok. eapply mb_lift; [now apply tail_ows|]. eapply mb_lift; [apply be_tag|]. apply mcut_ok. eapply mb_ok; [exact HM|]. eapply mb_ok; [exact HC|]. apply mcut_ok. unfold E.
    apply (end_step sy Hbe (lit "endif") m3 b3 b4 m4 rest (fun w3 w4 => mret (NIf {| ws_l := w3; ws_r := w4 |} (Cond {| ws_l := m1; ws_r := m2 |} (Some c) ns :: brs)))); auto. kwok.
  Qed.

  (** ** Match *)
  Lemma when_tag many s m b b1 tg b' m' ns t R : apart b1 (ttext tg) -> target_fits lc (level s) tg -> blanks b -> blanks b' -> many s (t ++ R) = (POk R ns, s) ->
    when_when lc sy many s (btag m b (lit "when" ++ b1 ++ ttext tg) b' m' ++ t ++ R) = (POk R (When {| ws_l := m; ws_r := m' |} tg ns), s).
  Proof using Hbe.
    clear Hsy Hee dbg. intros Ha Ht Hb Hb' HM. rewrite btag_eq, <- !app_assoc. unfold when_when. eapply mb_lift; [apply bs_tag|].
    apply head_step; [kwok|auto|apply Ha|apply (ttext_ws lc), Ht|apply apart_id; auto; apply (ttext_ne lc), Ht|]. apply mcut_ok.
    eapply mb_ok; [apply (mws_tparse lc s [] tg b'); [auto|constructor|auto|now apply tail_ts]|]. eapply mb_lift; [now apply tail_ows|]. eapply mb_lift; [apply be_tag|]. eapply mb_ok; [apply mcut_ok; exact HM|]. reflexivity.
  Qed.
  Lemma else_tag many s m b b' m' ns t R : blanks b -> blanks b' -> many s (t ++ R) = (POk R ns, s) ->
    when_else sy many s (btag m b (lit "else") b' m' ++ t ++ R) = (POk R (When {| ws_l := m; ws_r := m' |} (TName (lit "_")) ns), s).
  Proof using Hbe.
    clear Hsy Hee dbg lc. intros Hb Hb' HM. rewrite btag_eq. unfold when_else. eapply mb_lift; [apply bs_tag|].
    apply head_step; [kwok|auto|auto|now apply tail_ws|apply blanks_id; auto; now apply tail_id|]. apply mcut_ok.
    eapply mb_lift; [now apply tail_ows|]. eapply mb_lift; [apply be_tag|]. eapply mb_ok; [apply mcut_ok; exact HM|]. reflexivity.
  Qed.
  Lemma when_no many s m b kw b' m' y : kw_ok kw -> kw <> lit "when" -> blanks b -> blanks b' -> exists e x, when_when lc sy many s (btag m b kw b' m' ++ y) = (PErr e x, s).
  Proof using Hbe.
    clear Hsy Hee dbg. intros Hk Hw Hb Hb'. rewrite btag_eq. unfold when_when, mbind at 1, lift at 1. rewrite bs_tag. unfold mbind at 1, lift at 1. rewrite kw_ows by auto.
    destruct (kw_other (lit "when") kw b (b' ++ tail m' y)) as (x & z & E); [auto|auto|apply blanks_id; auto; now apply tail_id|congruence|]. unfold mbind at 1, lift at 1. rewrite E. eauto.
  Qed.
  Lemma else_no many s m b kw b' m' y : kw_ok kw -> kw <> lit "else" -> blanks b -> blanks b' -> exists e x, when_else sy many s (btag m b kw b' m' ++ y) = (PErr e x, s).
  Proof using Hbe.
    clear Hsy Hee dbg lc. intros Hk Hw Hb Hb'. rewrite btag_eq. unfold when_else, mbind at 1, lift at 1. rewrite bs_tag. unfold mbind at 1, lift at 1. rewrite kw_ows by auto.
    destruct (kw_other (lit "else") kw b (b' ++ tail m' y)) as (x & z & E); [auto|auto|apply blanks_id; auto; now apply tail_id|congruence|]. unfold mbind at 1, lift at 1. rewrite E. eauto.
  Qed.
  Lemma match_tag many s m1 b1 b0 e b2 m2 sp W E arm arms els mid m3 b3 b4 m4 rest : blanks b1 -> blanks b2 -> blanks b3 -> blanks b4 -> blanks sp -> apart b0 (text e) -> fits lc (level s) e ->
    (exists x, W = bs ++ x) -> E = btag m3 b3 (lit "endmatch") b4 m4 ++ rest ->
    mmany1 (when_when lc sy many) s W = (POk mid (arm :: arms), s) -> mopt (when_else sy many) s mid = (POk E els, s) ->
    match_parse lc dbg sy many s (mark m1 ++ b1 ++ lit "match" ++ b0 ++ text e ++ b2 ++ tail m2 (sp ++ W)) =
      (POk (be ++ rest) (NMatch {| ws_l := m1; ws_r := m2 |} e (arm :: arms ++ match els with Some a => [a] | None => [] end) {| ws_l := m3; ws_r := m4 |}), s).
  Proof using Hsy Hbe.
    clear Hee. intros Hb1 Hb2 Hb3 Hb4 Hsp Ha He HW -> HA HE. unfold match_parse.
    apply head_step; [kwok|auto|apply Ha|eapply text_ws; eauto|apply apart_id; auto; eapply text_ne; eauto|]. apply mcut_ok.
    eapply mb_ok; [apply (mws_eparse lc s [] e b2 (tail m2 (sp ++ W))); [auto|constructor|auto|now apply tail_ends2]|].
    eapply mb_lift; [now apply tail_ows|]. eapply mb_lift; [apply be_tag|]. apply mcut_ok.
    assert (WS : nohd is_ws W) by (destruct HW as (x & ->); now apply bs_ws).
    eapply mb_lift.
    { apply (pws_of (many0 (pws (value tt (comment_parse dbg sy)))) sp W [] W []); [auto|auto|constructor|auto|]. apply many0_steps; [constructor|].
      apply pws_perr0; auto. unfold value. apply pmap_perr. unfold comment_parse. apply pb_perr. apply pb_perr. rewrite (other_fails bs (comment_start sy)); [exact (perr_i _ _)|left; apply Hsy|exact HW]. }
    eapply mb_ok; [exact HA|]. apply mcut_ok. eapply mb_ok; [exact HE|]. apply mcut_ok. rewrite btag_eq.
    assert (B : exists b3', blanks b3' /\ pws (block_start_ sy) (bs ++ mark m3 ++ b3 ++ lit "endmatch" ++ b4 ++ tail m4 rest) = POk (mark m3 ++ b3' ++ lit "endmatch" ++ b4 ++ tail m4 rest) bs).
    { destruct m3 as [h|].
      - exists b3. split; auto. apply (pws_of (block_start_ sy) [] (bs ++ mark (Some h) ++ b3 ++ lit "endmatch" ++ b4 ++ tail m4 rest) [] (mark (Some h) ++ b3 ++ lit "endmatch" ++ b4 ++ tail m4 rest)); [constructor|now apply bs_ws|constructor|destruct h; reflexivity|apply bs_tag].
      - exists []. split; [constructor|]. apply (pws_of (block_start_ sy) [] (bs ++ b3 ++ lit "endmatch" ++ b4 ++ tail m4 rest) b3 (lit "endmatch" ++ b4 ++ tail m4 rest)); [constructor|now apply bs_ws|auto|reflexivity|apply bs_tag]. }
    destruct B as (b3' & Hb3' & B). eapply mb_lift; [exact B|].
    apply (head_step (lit "endmatch") m3 b3' b4 (tail m4 rest) (fun w3 => w4 <-- lift ows ;; mret (NMatch {| ws_l := m1; ws_r := m2 |} e ((arm :: arms) ++ match els with Some a => [a] | None => [] end) {| ws_l := w3; ws_r := w4 |})));
      [kwok|auto|auto|now apply tail_ws|apply blanks_id; auto; now apply tail_id|]. eapply mb_lift; [now apply tail_ows|]. reflexivity.
  Qed.

  (** ** Loops *)
  Lemma in_ts b b3 t y : gap b -> apart b3 t -> t <> [] -> ts b (lit "in" ++ b3 ++ t ++ y).
  Proof.
    clear lc dbg sy Hsy Hbe Hee. intros (Hb & N) Ha Ht. repeat split; [|congruence| |discriminate].
    - intros c Hc. cbn in Hc. intuition (subst; reflexivity).
    - unfold keyword. rewrite (identifier_exact (lit "in")); [exact (perr_i _ _)|discriminate|reflexivity|repeat constructor|now apply apart_id].
  Qed.
  Lemma for_tag many s m1 b1 ft tg e c b2 m2 ns t E rest n : blanks b1 -> blanks b2 -> for_text lc (level s) tg e c ft -> in_loop many s (t ++ E) = (POk E ns, s) ->
    (lift (block_start_ sy) ;;-- (w3 <-- lift ows ;; (els <-- mopt (else_block sy many) ;; (lift (pws (keyword (lit "endfor"))) ;;-- (w4 <-- lift ows ;;
       let '(w5, ns', w6) := match els with Some x => x | None => (None, [], None) end in
       mret (NLoop {| ws_l := m1; ws_r := m2 |} tg e c ns {| ws_l := w3; ws_r := w5 |} ns' {| ws_l := w6; ws_r := w4 |})))))) s E = (POk (be ++ rest) n, s) ->
    exists Y, ft = lit "for" ++ Y /\ nohd id_tail (Y ++ b2 ++ tail m2 (t ++ E)) /\
      loop_parse lc sy many s (mark m1 ++ b1 ++ lit "for" ++ Y ++ b2 ++ tail m2 (t ++ E)) = (POk (be ++ rest) n, s).
  Proof using Hbe.
    clear Hsy Hee dbg. intros Hb1 Hb2 Hf HM HE.
    inversion Hf as [tg' e' b3 b4 b5 Ha Ht Hb4 Ha2 He|tg' e' c' b3 b4 b5 b6 b7 Ha Ht Hb4 Ha2 He Ho Hb6 Ha3 Hc]; subst.
    - exists (b3 ++ ttext tg ++ b4 ++ lit "in" ++ b5 ++ text e). split; auto. rewrite <- !app_assoc. split; [apply apart_id; auto; apply (ttext_ne lc), Ht|].
      unfold loop_parse. apply head_step; [kwok|auto|apply Ha|apply (ttext_ws lc), Ht|apply apart_id; auto; apply (ttext_ne lc), Ht|]. apply mcut_ok.
      eapply mb_ok; [apply (mws_tparse lc s [] tg b4); [auto|constructor|apply Hb4|apply in_ts; auto; eapply text_ne; eauto]|].
      eapply mb_lift; [apply (kw_step (lit "in") [] b5); [kwok|constructor|apply Ha2|eapply text_ws; eauto|apply apart_id; auto; eapply text_ne; eauto]|]. apply mcut_ok.
      eapply mb_ok; [apply (mws_eparse lc s [] e b2); [auto|constructor|auto|now apply tail_ends2]|].
      destruct (kw_tail sy Hbe (lit "if") m2 (t ++ E)) as (x & y & K). eapply mb_ok; [eapply mopt_no; unfold mbind at 1, lift at 1; rewrite K; reflexivity|].
      eapply mb_lift; [now apply tail_ows|]. eapply mb_lift; [apply be_tag|]. apply mcut_ok. eapply mb_ok; [exact HM|]. apply mcut_ok. exact HE.
    - exists (b3 ++ ttext tg ++ b4 ++ lit "in" ++ b5 ++ text e ++ b6 ++ lit "if" ++ b7 ++ text c'). split; auto. rewrite <- !app_assoc. split; [apply apart_id; auto; apply (ttext_ne lc), Ht|].
      unfold loop_parse. apply head_step; [kwok|auto|apply Ha|apply (ttext_ws lc), Ht|apply apart_id; auto; apply (ttext_ne lc), Ht|]. apply mcut_ok.
      eapply mb_ok; [apply (mws_tparse lc s [] tg b4); [auto|constructor|apply Hb4|apply in_ts; auto; eapply text_ne; eauto]|].
      eapply mb_lift; [apply (kw_step (lit "in") [] b5); [kwok|constructor|apply Ha2|eapply text_ws; eauto|apply apart_id; auto; eapply text_ne; eauto]|]. apply mcut_ok.
      eapply mb_ok; [apply (mws_eparse_word lc s [] e b6); [auto|auto|constructor|auto|reflexivity]|].
      eapply mb_ok.
      { eapply mopt_ok. eapply mb_lift; [apply (kw_step (lit "if") [] b7 (text c' ++ b2 ++ tail m2 (t ++ E))); [kwok|constructor|apply Ha3|eapply text_ws; eauto|apply apart_id; auto; eapply text_ne; eauto]|]. apply mcut_ok.
        apply (mws_eparse lc s [] c' b2); [auto|constructor|auto|now apply tail_ends2]. }
      eapply mb_lift; [now apply tail_ows|]. eapply mb_lift; [apply be_tag|]. apply mcut_ok. eapply mb_ok; [exact HM|]. apply mcut_ok. exact HE.
  Qed.

  (** ** The induction *)
  Definition fit_state (s : pstate) (k : nat) (il : bool) : Prop := level s = k /\ (il = true -> loop_depth s <> 0%nat).
  Lemma fit_up s k il : fit_state s k il -> fit_state (up s) (S k) il.
  Proof. clear. intros (H1 & H2). split; [cbn; lia|exact H2]. Qed.
  Definition reads_node (k : nat) (il : bool) (n : node) (t rest : str) : Prop :=
    t <> [] /\ forall s, fit_state s k il -> node_one (mo (128 - k)) s (t ++ rest) = (POk rest n, s).
  Definition reads_nodes (k : nat) (il : bool) (ns : list node) (t rest : str) : Prop :=
    stops rest -> forall s, fit_state s k il -> node_many (128 - k) s (t ++ rest) = (POk rest ns, s).
  Definition reads_branches (k : nat) (il : bool) (brs : list cond) (t rest : str) : Prop :=
    stops rest -> (forall many s, exists e x, cond_parse lc sy many s rest = (PErr e x, s)) ->
    stops (t ++ rest) /\ forall s, fit_state s k il -> mmany0 (cond_parse lc sy (node_many (128 - k))) s (t ++ rest) = (POk rest brs, s).
  Definition reads_arms (k : nat) (il : bool) (arms : list when_) (t rest : str) : Prop :=
    stops rest -> (forall many s, exists e x, when_when lc sy many s rest = (PErr e x, s)) -> (forall many s, exists e x, when_else sy many s rest = (PErr e x, s)) ->
    stops (t ++ rest) /\ forall s, fit_state s k il -> exists ws els mid, arms = ws ++ match els with Some a => [a] | None => [] end /\
      mmany0 (when_when lc sy (node_many (128 - k))) s (t ++ rest) = (POk mid ws, s) /\ mopt (when_else sy (node_many (128 - k))) s mid = (POk rest els, s).

  Lemma r_block k il (kw Y : str) m b b' m' n rest y t : (k < 128)%nat -> kw_ok kw -> blanks b -> nohd id_tail (Y ++ b' ++ tail m' y) -> t ++ rest = btag m b (kw ++ Y) b' m' ++ y -> t <> [] ->
    (forall s, fit_state s k il -> exists f, block_kind lc dbg sy (node_many (128 - S k)) kw = Some f /\ f (up s) (mark m ++ b ++ kw ++ Y ++ b' ++ tail m' y) = (POk (be ++ rest) n, up s)) ->
    reads_node k il n t rest.
  Proof using Hsy.
    clear Hbe Hee. intros Hk Hkw Hb HY Et Ht H. split; auto. intros s Hs. destruct (H s Hs) as (f & Ef & E). rewrite Et, btag_eq, <- app_assoc. replace (128 - k)%nat with (S (128 - S k)) by lia. cbn [WriteTag.mo].
    eapply node_block; [exact Hsy|destruct Hs; lia|auto|auto|exact HY|exact Ef|exact E].
  Qed.
  Lemma app_ne (a b : str) : a <> [] -> a ++ b <> [].
  Proof. clear. destruct a; [congruence|discriminate]. Qed.
  Lemma tag_ne m b body b' m' : btag m b body b' m' <> [].
  Proof using Hsy. clear Hbe Hee. unfold WriteSpec.btag. apply app_ne. now apply bs_ne. Qed.
  Lemma r_raw k il m1 b1 b2 m2 l t m3 b3 b4 m4 rest : (k < 128)%nat -> wf_literal l -> t = lws l ++ lval l ++ rws l -> blanks b1 -> blanks b2 -> blanks b3 -> blanks b4 ->
    (forall u v, t = u ++ v -> v <> [] -> ~ starts_keyword_tag bs be (lit "endraw") (v ++ keyword_tag bs be (lit "endraw") m3 b3 b4 m4 ++ rest)) ->
    reads_node k il (NRaw {| ws_l := m1; ws_r := m2 |} l {| ws_l := m3; ws_r := m4 |}) (keyword_tag bs be (lit "raw") m1 b1 b2 m2 ++ t ++ keyword_tag bs be (lit "endraw") m3 b3 b4 m4) rest.
  Proof using Hsy Hbe.
    clear Hee. intros Hk Hl Et Hb1 Hb2 Hb3 Hb4 Hno. split; [apply app_ne; apply keyword_tag_nonempty; exact Hsy|]. intros s (Hs & _).
    assert (Hc : closing_ok be).
    { destruct Hbe as (H & _). destruct be as [|c u]; [destruct H|]. cbn in H. unfold closing_ok. unfold ident_start in H. cbn. intuition (subst; try lia). }
    pose proof (raw_node_one lc dbg sy Hsy (mo (128 - k)) m1 b1 b2 m2 t m3 b3 b4 m4 rest s) as R. unfold raw_src in R. rewrite R; auto.
    - rewrite Et, split_text; auto.
    - destruct (128 - k)%nat eqn:E; [lia|discriminate].
    - change MAX_DEPTH with 128%nat. lia.
  Qed.
  Lemma r_simple k il m b body b' m' n rest : (k < 128)%nat -> blanks b -> blanks b' -> simple_text lc (S k) il {| ws_l := m; ws_r := m' |} n body -> reads_node k il n (btag m b body b' m') rest.
  Proof using Hsy Hbe.
    clear Hee. intros Hk Hb Hb' H.
    assert (D : exists kw Y, body = kw ++ Y /\ kw_ok kw /\ nohd id_tail (Y ++ b' ++ tail m' rest) /\ exists f, (forall many, block_kind lc dbg sy many kw = Some f) /\ forall s, fit_state s k il -> f (up s) (mark m ++ b ++ kw ++ Y ++ b' ++ tail m' rest) = (POk (be ++ rest) n, up s)).
    { assert (S0 : exists s0, fit_state s0 (S k) il) by (exists {| level := S k; loop_depth := 1 |}; split; [reflexivity|discriminate]). destruct S0 as (s0 & F1 & F2).
      destruct (simple_read lc dbg sy Hbe il s0 m b body b' m' n rest Hb Hb' F2) as (kw & Y & E1 & E2 & E3 & f & E4 & _); [now rewrite F1|]. exists kw, Y. split; [auto|]. split; [auto|]. split; [auto|].
      exists f. split; auto. intros s Hs. apply fit_up in Hs. destruct Hs as (G1 & G2).
      destruct (simple_read lc dbg sy Hbe il (up s) m b body b' m' n rest Hb Hb' G2) as (kw' & Y' & E1' & E2' & E3' & f' & E4' & R); [now rewrite G1|].
      assert (K : kw' = kw /\ Y' ++ b' ++ tail m' rest = Y ++ b' ++ tail m' rest).
      { destruct E2 as (A1 & A2 & A3), E2' as (B1 & B2 & B3). pose proof (identifier_exact kw (Y ++ b' ++ tail m' rest) A1 A2 A3 E3) as I1. pose proof (identifier_exact kw' (Y' ++ b' ++ tail m' rest) B1 B2 B3 E3') as I2.
        rewrite app_assoc, <- E1' in I2. rewrite app_assoc, <- E1 in I1. rewrite I1 in I2. injection I2 as -> ->. auto. }
      destruct K as (-> & K). rewrite K in R. pose proof (E4 (node_many 0)) as Q1. pose proof (E4' (node_many 0)) as Q2. rewrite Q1 in Q2. injection Q2 as <-. exact R. }
    destruct D as (kw & Y & -> & E2 & E3 & f & E4 & E5). eapply (r_block k il kw Y m b b' m' n rest rest); auto; [apply tag_ne|]. intros s Hs. exists f. auto.
  Qed.
  Lemma r_body k il m1 b1 body b2 m2 mk ns t m3 b3 e b4 m4 rest : (k < 128)%nat -> blanks b1 -> blanks b2 -> blanks b3 -> blanks b4 -> body_text lc (S k) mk body e ->
    reads_nodes (S k) il ns t (btag m3 b3 e b4 m4 ++ rest) -> reads_node k il (mk {| ws_l := m1; ws_r := m2 |} ns {| ws_l := m3; ws_r := m4 |}) (btag m1 b1 body b2 m2 ++ t ++ btag m3 b3 e b4 m4) rest.
  Proof using Hsy Hbe.
    clear Hee. intros Hk Hb1 Hb2 Hb3 Hb4 H HN. split; [apply app_ne, tag_ne|]. intros s Hs.
    assert (HM : node_many (128 - S k) (up s) (t ++ btag m3 b3 e b4 m4 ++ rest) = (POk (btag m3 b3 e b4 m4 ++ rest) ns, up s)).
    { apply HN; [eapply body_stops; eauto|now apply fit_up]. }
    destruct (body_read lc dbg sy Hbe (node_many (128 - S k)) (up s) m1 b1 body b2 m2 mk ns t m3 b3 e b4 m4 rest) as (kw & Y & -> & E2 & E3 & f & E4 & E5); auto.
    { destruct Hs. cbn. lia. } { destruct Hs as (<- & _). exact H. }
    rewrite <- !app_assoc. rewrite btag_eq, <- app_assoc. replace (128 - k)%nat with (S (128 - S k)) by lia. cbn [WriteTag.mo].
    eapply node_block; [exact Hsy|destruct Hs; lia|auto|auto|exact E3|exact E4|exact E5].
  Qed.
  Lemma r_if k il m1 b1 b2 m2 b0 c ct ns t brs tb m3 b3 b4 m4 rest : (k < 128)%nat -> blanks b1 -> blanks b2 -> blanks b3 -> blanks b4 ->
    apart b0 ct -> test_text lc (S k) c ct -> reads_nodes (S k) il ns t (tb ++ btag m3 b3 (lit "endif") b4 m4 ++ rest) ->
    reads_branches (S k) il brs tb (btag m3 b3 (lit "endif") b4 m4 ++ rest) ->
    reads_node k il (NIf {| ws_l := m3; ws_r := m4 |} (Cond {| ws_l := m1; ws_r := m2 |} (Some c) ns :: brs)) (btag m1 b1 (lit "if" ++ b0 ++ ct) b2 m2 ++ t ++ tb ++ btag m3 b3 (lit "endif") b4 m4) rest.
  Proof using Hsy Hbe.
    clear Hee. intros Hk Hb1 Hb2 Hb3 Hb4 Ha Hc HN HB. set (E := btag m3 b3 (lit "endif") b4 m4 ++ rest) in *.
    assert (SE : stops E) by (apply plain_stops; auto; kwok). destruct (HB SE) as (SB & HB'); [intros; now apply cond_no|]. specialize (HN SB). destruct (test_ne lc _ _ _ Hc) as (N1 & N2).
    eapply (r_block k il (lit "if") (b0 ++ ct) m1 b1 b2 m2 _ rest (t ++ tb ++ E)); auto; [kwok|rewrite <- !app_assoc; now apply apart_id|now rewrite <- !app_assoc|apply app_ne, tag_ne|].
    intros s Hs. pose proof (fit_up _ _ _ Hs) as Hu. eexists. split; [reflexivity|]. rewrite <- !app_assoc.
    apply (if_tag (node_many (128 - S k)) (up s) m1 b1 b0 ct c b2 m2 ns t brs tb m3 b3 b4 m4 rest); auto. destruct Hs as (<- & _). exact Hc.
  Qed.
  Lemma r_match k il m1 b1 b2 m2 b0 e sp m5 b5 b6 m6 b7 tg ns t arms ta m3 b3 b4 m4 rest : (k < 128)%nat -> blanks b1 -> blanks b2 -> blanks b3 -> blanks b4 ->
    apart b0 (text e) -> fits lc (S k) e -> blanks sp -> blanks b5 -> blanks b6 -> apart b7 (ttext tg) -> target_fits lc (S k) tg ->
    reads_nodes (S k) il ns t (ta ++ btag m3 b3 (lit "endmatch") b4 m4 ++ rest) -> reads_arms (S k) il arms ta (btag m3 b3 (lit "endmatch") b4 m4 ++ rest) ->
    reads_node k il (NMatch {| ws_l := m1; ws_r := m2 |} e (When {| ws_l := m5; ws_r := m6 |} tg ns :: arms) {| ws_l := m3; ws_r := m4 |})
      (btag m1 b1 (lit "match" ++ b0 ++ text e) b2 m2 ++ sp ++ btag m5 b5 (lit "when" ++ b7 ++ ttext tg) b6 m6 ++ t ++ ta ++ btag m3 b3 (lit "endmatch") b4 m4) rest.
  Proof using Hsy Hbe.
    clear Hee. intros Hk Hb1 Hb2 Hb3 Hb4 Ha He Hsp Hb5 Hb6 Ha7 Ht HN HA. set (E := btag m3 b3 (lit "endmatch") b4 m4 ++ rest) in *.
    assert (SE : stops E) by (apply plain_stops; auto; kwok).
    destruct (HA SE) as (SA & HA'); [intros; apply when_no; auto; [kwok|discriminate]|intros; apply else_no; auto; [kwok|discriminate]|]. specialize (HN SA).
    set (W := btag m5 b5 (lit "when" ++ b7 ++ ttext tg) b6 m6 ++ t ++ ta ++ E).
    eapply (r_block k il (lit "match") (b0 ++ text e) m1 b1 b2 m2 _ rest (sp ++ W)); auto; [kwok|rewrite <- !app_assoc; apply apart_id; auto; eapply text_ne; eauto|unfold W; now rewrite <- !app_assoc|apply app_ne, tag_ne|].
    intros s Hs. pose proof (fit_up _ _ _ Hs) as Hu. destruct (HA' (up s) Hu) as (ws & els & mid & -> & EM & EE). eexists. split; [reflexivity|]. rewrite <- !app_assoc. destruct Hs as (Hl & _). assert (Hl' : level (up s) = S k) by (cbn; lia).
    eapply (match_tag (node_many (128 - S k)) (up s) m1 b1 b0 e b2 m2 sp W E _ ws els mid m3 b3 b4 m4 rest); [exact Hb1|exact Hb2|exact Hb3|exact Hb4|exact Hsp|exact Ha|rewrite Hl'; exact He| |reflexivity| |exact EE].
    - exists (mark m5 ++ b5 ++ (lit "when" ++ b7 ++ ttext tg) ++ b6 ++ tail m6 (t ++ ta ++ E)). unfold W. now rewrite btag_eq.
    - unfold mmany1. eapply mb_ok; [apply when_tag; [exact Ha7|rewrite Hl'; exact Ht|exact Hb5|exact Hb6|apply HN; exact Hu]|]. eapply mb_ok; [exact EM|]. reflexivity.
  Qed.
  Lemma r_for k il m1 b1 b2 m2 tg e c ft ns t m3 b3 b4 m4 rest : (k < 128)%nat -> blanks b1 -> blanks b2 -> blanks b3 -> blanks b4 ->
    for_text lc (S k) tg e c ft -> reads_nodes (S k) true ns t (btag m3 b3 (lit "endfor") b4 m4 ++ rest) ->
    reads_node k il (NLoop {| ws_l := m1; ws_r := m2 |} tg e c ns {| ws_l := m3; ws_r := None |} [] {| ws_l := None; ws_r := m4 |}) (btag m1 b1 ft b2 m2 ++ t ++ btag m3 b3 (lit "endfor") b4 m4) rest.
  Proof using Hsy Hbe.
    clear Hee. intros Hk Hb1 Hb2 Hb3 Hb4 Hf HN. set (E := btag m3 b3 (lit "endfor") b4 m4 ++ rest) in *. assert (SE : stops E) by (apply plain_stops; auto; kwok). specialize (HN SE).
    split; [apply app_ne, tag_ne|]. intros s Hs. pose proof (fit_up _ _ _ Hs) as (Hu1 & Hu2).
    destruct (for_tag (node_many (128 - S k)) (up s) m1 b1 ft tg e c b2 m2 ns t E rest (NLoop {| ws_l := m1; ws_r := m2 |} tg e c ns {| ws_l := m3; ws_r := None |} [] {| ws_l := None; ws_r := m4 |})) as (Y & -> & HY & R); auto.
    - now rewrite Hu1.
    - apply in_loop_ok. apply HN. split; [exact Hu1|discriminate].
    - unfold E. rewrite btag_eq. eapply mb_lift; [apply bs_tag|]. eapply mb_lift; [apply kw_ows; [kwok|auto]|].
      destruct (kw_other (lit "else") (lit "endfor") b3 (b4 ++ tail m4 rest)) as (x & y & K); [kwok|auto|apply blanks_id; auto; now apply tail_id|discriminate|].
      eapply mb_ok; [eapply mopt_no; unfold else_block, mbind at 1, lift at 1; rewrite K; reflexivity|].
      eapply mb_lift; [apply kw_step; [kwok|auto|auto|now apply tail_ws|apply blanks_id; auto; now apply tail_id]|]. eapply mb_lift; [now apply tail_ows|]. reflexivity.
    - rewrite <- !app_assoc. fold E. rewrite btag_eq, <- app_assoc. replace (128 - k)%nat with (S (128 - S k)) by lia. cbn [WriteTag.mo].
      eapply node_block; [exact Hsy|destruct Hs; lia|kwok|auto|exact HY|reflexivity|exact R].
  Qed.
  Lemma r_for_else k il m1 b1 b2 m2 tg e c ft ns t m5 b5 b6 m6 els te m3 b3 b4 m4 rest : (k < 128)%nat -> blanks b1 -> blanks b2 -> blanks b3 -> blanks b4 -> blanks b5 -> blanks b6 ->
    for_text lc (S k) tg e c ft -> reads_nodes (S k) true ns t (btag m5 b5 (lit "else") b6 m6 ++ te ++ btag m3 b3 (lit "endfor") b4 m4 ++ rest) -> reads_nodes (S k) il els te (btag m3 b3 (lit "endfor") b4 m4 ++ rest) ->
    reads_node k il (NLoop {| ws_l := m1; ws_r := m2 |} tg e c ns {| ws_l := m5; ws_r := m6 |} els {| ws_l := m3; ws_r := m4 |})
      (btag m1 b1 ft b2 m2 ++ t ++ btag m5 b5 (lit "else") b6 m6 ++ te ++ btag m3 b3 (lit "endfor") b4 m4) rest.
  Proof using Hsy Hbe.
    clear Hee. intros Hk Hb1 Hb2 Hb3 Hb4 Hb5 Hb6 Hf HN HE. set (E := btag m3 b3 (lit "endfor") b4 m4 ++ rest) in *. set (L := btag m5 b5 (lit "else") b6 m6 ++ te ++ E) in *.
    assert (SE : stops E) by (apply plain_stops; auto; kwok). assert (SL : stops L) by (apply plain_stops; auto; kwok). specialize (HN SL). specialize (HE SE).
    split; [apply app_ne, tag_ne|]. intros s Hs. pose proof (fit_up _ _ _ Hs) as Hu. pose proof Hu as (Hu1 & Hu2).
    destruct (for_tag (node_many (128 - S k)) (up s) m1 b1 ft tg e c b2 m2 ns t L rest (NLoop {| ws_l := m1; ws_r := m2 |} tg e c ns {| ws_l := m5; ws_r := m6 |} els {| ws_l := m3; ws_r := m4 |})) as (Y & -> & HY & R); auto.
    - now rewrite Hu1.
    - apply in_loop_ok. apply HN. split; [exact Hu1|discriminate].
    - unfold L. rewrite btag_eq. eapply mb_lift; [apply bs_tag|]. eapply mb_lift; [apply kw_ows; [kwok|auto]|].
      eapply (mb_ok _ _ _ _ (b3 ++ lit "endfor" ++ b4 ++ tail m4 rest) (Some (m6, els, m3)) (up s)).
      { eapply mopt_ok. unfold else_block. eapply mb_lift; [apply kw_step; [kwok|auto|auto|now apply tail_ws|apply blanks_id; auto; now apply tail_id]|]. apply mcut_ok. eapply mb_lift; [now apply tail_ows|].
        eapply mb_lift; [apply be_tag|]. eapply mb_ok; [apply HE; exact Hu|]. unfold E. rewrite btag_eq. eapply mb_lift; [apply bs_tag|]. eapply mb_lift; [apply kw_ows; [kwok|auto]|]. reflexivity. }
      eapply mb_lift; [apply kw_step; [kwok|auto|auto|now apply tail_ws|apply blanks_id; auto; now apply tail_id]|]. eapply mb_lift; [now apply tail_ows|]. reflexivity.
    - rewrite <- !app_assoc. fold E. fold L. rewrite btag_eq, <- app_assoc. replace (128 - k)%nat with (S (128 - S k)) by lia. cbn [WriteTag.mo].
      eapply node_block; [exact Hsy|destruct Hs; lia|kwok|auto|exact HY|reflexivity|exact R].
  Qed.
  Lemma r_cons k il n t ns u rest : reads_node k il n t (u ++ rest) -> reads_nodes k il ns u rest -> reads_nodes k il (n :: ns) (t ++ u) rest.
  Proof.
    clear Hsy Hbe Hee. intros (Ht & H1) H2 Hr s Hs. specialize (H1 s Hs). specialize (H2 Hr s Hs). rewrite node_many_eq in *. rewrite <- app_assoc. eapply mmany0_step; [exact H1| |exact H2].
    rewrite (app_length t). destruct t; [congruence|]. cbn [length]. lia.
  Qed.
  Lemma r_nil k il rest : reads_nodes k il [] [] rest.
  Proof. clear Hsy Hbe Hee. intros Hr s Hs. rewrite node_many_eq. destruct (Hr (128 - k)%nat s) as (e & m & E). eapply mmany0_stop. exact E. Qed.

  Theorem writes_read k il ns t rest : writes_all lc sy k il ns t rest -> reads_nodes k il ns t rest.
  Proof using Hsy Hbe Hee.
    revert k il ns t rest. apply (writes_all_ind2 lc sy reads_node reads_nodes reads_branches reads_arms).
    - intros k il l t rest H1 H2 H3 H4 H5. split; auto. intros s _. now apply lit_read.
    - intros k il m m' t rest H1 H2 H3. split; [apply app_ne, (cs_ne sy Hsy)|]. intros s _. rewrite <- !app_assoc. rewrite comment_node; auto.
      + now rewrite (ends_last m').
      + intros Hm. rewrite app_assoc. apply no_mark_nohd; auto. pose proof (ce_ne sy Hsy). destruct t; [auto|discriminate].
    - intros k il m b e b' m' rest (H1 & H1') H2 H3 H4. split; [unfold expr_tag; apply app_ne; destruct (valid_nonempty sy Hsy) as (V1 & V2 & V3 & V4 & V5 & V6); assumption|]. intros s (Hs & _). apply expr_tag_node; auto. change MAX_DEPTH with 128%nat. lia.
    - intros. now apply r_raw.
    - intros. now apply r_simple.
    - intros. now apply r_body.
    - intros. now apply r_if.
    - intros. now apply r_match.
    - intros. now apply r_for.
    - intros. now apply r_for_else.
    - intros. apply r_nil.
    - intros k il n t ns u rest _ H1 _ H2. now apply r_cons.
    - intros k il rest Hr Hc. split; [exact Hr|]. intros s Hs. destruct (Hc (node_many (128 - k)) s) as (e & x & E). eapply mmany0_stop. exact E.
    - intros k il m b body b' m' c ns t brs u rest Hb Hb' Hbr _ HN _ HB Hr Hc. destruct (HB Hr Hc) as (SB & HB'). rewrite <- !app_assoc. split; [eapply branch_stops; eauto|].
      intros s Hs. eapply mmany0_step; [apply cond_tag; [destruct Hs as (-> & _); exact Hbr|exact Hb|exact Hb'|apply HN; auto]| |apply HB'; auto].
      eapply Nat.le_lt_trans; [|apply btag_ne]. rewrite (app_length t). lia.
    - intros k il rest Hr Hw He. split; [exact Hr|]. intros s Hs. exists [], None, rest. split; auto. split.
      + destruct (Hw (node_many (128 - k)) s) as (e & x & E). eapply mmany0_stop. exact E.
      + destruct (He (node_many (128 - k)) s) as (e & x & E). eapply mopt_no. exact E.
    - intros k il m b b1 tg b' m' ns t arms u rest Hb Hb' Ha Ht _ HN _ HA Hr Hw He. destruct (HA Hr Hw He) as (SA & HA'). rewrite <- !app_assoc. split.
      + apply kw_stops; auto; [kwok|]. rewrite <- !app_assoc. apply apart_id; auto. apply (ttext_ne lc), Ht.
      + intros s Hs. destruct (HA' s Hs) as (ws & els & mid & -> & EM & EE). exists (When {| ws_l := m; ws_r := m' |} tg ns :: ws), els, mid. split; auto. split; auto.
        eapply mmany0_step; [apply when_tag; [exact Ha|destruct Hs as (-> & _); exact Ht|exact Hb|exact Hb'|apply HN; auto]| |exact EM]. eapply Nat.le_lt_trans; [|apply btag_ne]. rewrite (app_length t). lia.
    - intros k il m b b' m' ns t rest Hb Hb' _ HN Hr Hw He. rewrite <- !app_assoc. split; [apply plain_stops; auto; kwok|].
      intros s Hs. exists [], (Some (When {| ws_l := m; ws_r := m' |} (TName (lit "_")) ns)), (btag m b (lit "else") b' m' ++ t ++ rest). split; auto. split.
      + destruct (when_no (node_many (128 - k)) s m b (lit "else") b' m' (t ++ rest)) as (e & x & E); auto; [kwok|discriminate|]. eapply mmany0_stop. exact E.
      + eapply mopt_ok. apply else_tag; auto.
  Qed.
  Theorem template_read ns src : writes_template lc sy ns src -> from_str lc dbg sy src = Some (inl ns).
  Proof using Hsy Hbe Hee.
    intros H. pose proof (writes_read _ _ _ _ _ H (stops_nil lc dbg sy Hsy) state0 ltac:(split; [reflexivity|discriminate])) as R. rewrite app_nil_r in R.
    unfold from_str, parse_template. change (128 - 0)%nat with MAX_DEPTH in R. unfold mbind at 1. rewrite R. reflexivity.
  Qed.
End Round.
