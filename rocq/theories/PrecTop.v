(** * Expression tags: the expression written in a tag is the one that is parsed; operator trees. *)
From Coq Require Import Lia ZArith ZifyBool ZifyNat ZifyN.
From Verif Require Import Base Ws Config ConfigFacts Nom Lex Ast ParseExpr ParseNode NomFacts LexFacts LitSpec ParseSpec TreeSpec TplFacts TextFacts PrecSpec LitComplete PrecFacts PrecRound.
Local Open Scope N_scope.
Set Default Proof Using "Type".

Lemma plain_end_stop ee r : plain_end ee -> exists c t, ee = c :: t /\ is_mark c = false /\ ends2 (ee ++ r) /\ no_start (ee ++ r).
Proof.
  destruct ee as [|c t]; [intros []|]. intros (H1 & H2 & H3). exists c, t.
  assert (T : id_tail c = false) by (revert H1 H2; unfold ident_start, id_tail, id_start, is_upper, is_lower, is_dec; lia).
  destruct H3 as [H3|(-> & H3)].
  - assert (W : is_ws c = false).
    { unfold is_ws. destruct (N.eqb_spec c 32) as [->|]; [exfalso; apply H3; cbn; tauto|]. destruct (N.eqb_spec c 9) as [->|]; [exfalso; apply H3; cbn; tauto|].
      destruct (N.eqb_spec c 13) as [->|]; [exfalso; apply H3; cbn; tauto|]. destruct (N.eqb_spec c 10) as [->|]; [exfalso; apply H3; cbn; tauto|]. reflexivity. }
    assert (E : ends ((c :: t) ++ r)) by (repeat split; auto; intros K; apply H3; revert K; unfold stop_chars; cbn; tauto).
    repeat split; auto; [|now left|intros K; apply H3; revert K; cbn; tauto].
    unfold is_mark. destruct (N.eqb_spec c 43) as [->|]; [exfalso; apply H3; cbn; tauto|]. destruct (N.eqb_spec c 45) as [->|]; [exfalso; apply H3; cbn; tauto|].
    destruct (N.eqb_spec c 126) as [->|]; [exfalso; apply H3; cbn; tauto|]. reflexivity.
  - repeat split; [|cbn; intuition discriminate]. right. exists 37, (t ++ r). split; [auto|]. split; [reflexivity|].
    destruct t as [|d t]; [destruct H3|]. destruct H3 as (K1 & K2 & K3). repeat split.
    + unfold is_ws. destruct (N.eqb_spec d 32) as [->|]; [exfalso; apply K3; cbn; tauto|]. destruct (N.eqb_spec d 9) as [->|]; [exfalso; apply K3; cbn; tauto|].
      destruct (N.eqb_spec d 13) as [->|]; [exfalso; apply K3; cbn; tauto|]. destruct (N.eqb_spec d 10) as [->|]; [exfalso; apply K3; cbn; tauto|]. reflexivity.
    + revert K1 K2. unfold ident_start, id_tail, id_start, is_upper, is_lower, is_dec. lia.
    + intros K. apply K3. revert K. cbn. tauto.
Qed.
(** A marker and the delimiter. *)
Lemma mark_ends ee m r : plain_end ee -> ends2 (mark m ++ ee ++ r).
Proof.
  intros H. destruct (plain_end_stop ee r H) as (c & t & _ & _ & E2 & N).
  destruct m as [[]|]; [right; exists 43; exists (ee ++ r); auto|right; exists 45; exists (ee ++ r); auto|left|exact E2].
  repeat split. unfold stop_chars. cbn. intuition discriminate.
Qed.

Section Top.
  Variables (lc : N -> bool) (dbg : str -> str) (sy : syntax).
  Hypothesis Hsy : syntax_valid sy.
  Notation canon := (canon lc).

  Lemma canon_mark e k r : canon k e -> (forall t, text e <> 45 :: t) -> nohd is_mark (text e ++ r).
  Proof.
    clear dbg sy Hsy. intros H Hn. destruct (canon_hd lc e k H) as (c & t & E & Hc). rewrite E in *. cbn [app nohd].
    destruct (is_mark c) eqn:M; auto. exfalso. assert (C : c = 43 \/ c = 45 \/ c = 126) by (revert M; unfold is_mark; lia).
    destruct C as [->|[->| ->]]; [|exact (Hn t eq_refl)|]; unfold first in Hc; cbn in Hc; intuition discriminate.
  Qed.

  (** The tag is read as one expression node, wherever it stands. *)
  Lemma expr_tag_node many s m b e b' m' rest : canon 0 e -> (need e + 15 + level s <= MAX_DEPTH)%nat -> plain_end (expr_end sy) ->
    blanks b -> blanks b' -> (m = None -> b = [] -> forall t, text e <> 45 :: t) ->
    node_one lc dbg sy many s (expr_tag (expr_start sy) (expr_end sy) m b (text e) b' m' ++ rest) =
      (POk rest (NExpr {| ws_l := m; ws_r := m' |} e), s).
  Proof using lc dbg Hsy.
    intros Hc Hn Hee Hb Hb' Hm. destruct (plain_end_stop _ rest Hee) as (c & t & Ee & Hmark & _ & _).
    unfold expr_tag. rewrite <- !app_assoc. set (i := text e ++ b' ++ mark m' ++ expr_end sy ++ rest).
    assert (Hs2 : ends2 (mark m' ++ expr_end sy ++ rest)) by now apply mark_ends.
    unfold node_one, mor. unfold lift at 1, pmap at 1.
    destruct (lit_stops sy Hsy (expr_start sy) (expr_start sy ++ mark m ++ b ++ i) ltac:(cbn; auto) (ex_intro _ _ eq_refl)) as (e1 & m1 & ->).
    unfold lift at 1, pmap at 1, comment_parse, pbind at 1. unfold pbind at 1.
    rewrite (other_fails (expr_start sy) (comment_start sy)); [|left; apply Hsy|eauto].
    unfold expr_node. unfold mbind at 1. unfold mbind at 1. unfold lift at 1. rewrite tag_exact. cbv iota beta. unfold mcut, mbind at 1. unfold lift at 1.
    assert (Nm : m = None -> nohd is_mark (b ++ i)).
    { intros E. destruct b as [|x b]; [apply (canon_mark e 0); auto; now apply Hm|]. inversion Hb as [|? ? Hx _]; subst. cbn in Hx. cbn [app nohd].
      destruct Hx as [<-|[<-|[<-|[<-|[]]]]]; reflexivity. }
    rewrite ows_exact by exact Nm. unfold mbind at 1. unfold mws, mbind at 1. unfold lift at 1.
    rewrite skip_blanks_exact by (auto; eapply canon_ws; eauto). unfold mbind at 1. unfold eparse, with_level, expr_parse.
    destruct (proj2 (proj2 (reads_all lc e 0%nat Hc)) (MAX_DEPTH - level s - 15)%nat b' _ ltac:(lia) Hb' Hs2) as (b2 & Hb2 & E).
    replace (15 + (MAX_DEPTH - level s - 15))%nat with (MAX_DEPTH - level s)%nat in E by lia. fold i in E. rewrite E.
    unfold mbind, lift, mret, pbind, cut. rewrite skip_blanks_exact by (auto; now apply ends2_ws).
    rewrite ows_exact by (intros _; rewrite Ee; exact Hmark). unfold por, value, pmap. rewrite tag_exact. reflexivity.
  Qed.
  Lemma expr_tag_parses m b e b' m' : canon 0 e -> (need e + 15 <= MAX_DEPTH)%nat -> plain_end (expr_end sy) ->
    blanks b -> blanks b' -> (m = None -> b = [] -> forall t, text e <> 45 :: t) ->
    from_str lc dbg sy (expr_tag (expr_start sy) (expr_end sy) m b (text e) b' m') = Some (inl [NExpr {| ws_l := m; ws_r := m' |} e]).
  Proof using lc dbg Hsy.
    intros Hc Hn Hee Hb Hb' Hm. rewrite from_str_many. set (src := expr_tag _ _ _ _ _ _ _).
    pose proof (expr_tag_node (Some (node_many lc dbg sy 127)) state0 m b e b' m' [] Hc ltac:(cbn [state0 level]; lia) Hee Hb Hb' Hm) as E. rewrite app_nil_r in E. fold src in E.
    assert (L : exists k, length src = S k).
    { unfold src, expr_tag. destruct (expr_start sy) as [|c t] eqn:Es; [|cbn; eauto]. exfalso. pose proof (valid_nonempty sy Hsy) as V. destruct V as (V1 & V2 & V3 & _). cbn in *. intuition congruence. }
    destruct L as (k & L). rewrite L. rewrite (many_cons lc dbg sy _ (S k) state0 src [] _ _ E) by (rewrite L; cbn; lia). rewrite many_end by exact Hsy. reflexivity.
  Qed.
End Top.

(** ** Operator trees *)
Section Trees.
  Variable lc : N -> bool.
  Lemma find_prec_in op : In op binary_ops -> In (op, find_prec op precedence) precedence /\ (1 <= find_prec op precedence <= 9)%nat.
  Proof.
    intros H. unfold binary_ops in H.
    repeat (destruct H as [<-|H]; [split; [cbn; tauto|vm_compute; lia]|]). destruct H.
  Qed.
  Lemma strength_pos t : tree_ok lc t -> (1 <= strength t <= 13)%nat.
  Proof. destruct t; cbn [strength tree_ok]; intros H; try lia. destruct (find_prec_in op (proj1 H)). lia. Qed.
  Lemma canon_written t : tree_ok lc t -> canon lc (strength t) (written t).
  Proof.
    induction t as [x|op t IH|op l IHl r IHr]; cbn [tree_ok written strength].
    - intros (H1 & H2 & H3). cbn. auto.
    - intros (Ho & Ht). specialize (IH Ht). cbn [canon]. split; [lia|]. split; [exact Ho|]. unfold paren.
      destruct (Nat.ltb_spec (strength t) 11); [cbn [canon]; split; [lia|eapply canon_mono; [|exact IH]; lia]|eapply canon_mono; [|exact IH]; lia].
    - intros (Ho & Hl & Hr). specialize (IHl Hl). specialize (IHr Hr). destruct (find_prec_in op Ho) as (Hi & Hp). set (p := find_prec op precedence) in *.
      cbn [canon]. exists p. split; [exact Hi|]. split; [lia|]. unfold paren. split.
      + destruct (_ || _) eqn:E; [cbn [canon]; split; [lia|eapply canon_mono; [|exact IHl]; lia]|]. apply orb_false_iff in E as [E _]. apply Nat.ltb_ge in E. eapply canon_mono; [|exact IHl]; lia.
      + destruct (Nat.leb_spec (strength r) p); [cbn [canon]; split; [lia|eapply canon_mono; [|exact IHr]; lia]|]. eapply canon_mono; [|exact IHr]; lia.
  Qed.
  Lemma bare_paren b e : bare (paren b e) = bare e.
  Proof. destruct b; reflexivity. Qed.
  Lemma bare_written t : bare (written t) = Some t.
  Proof.
    induction t as [x|op t IH|op l IHl r IHr]; cbn [written bare]; auto.
    - rewrite bare_paren, IH. reflexivity.
    - rewrite !bare_paren, IHl, IHr. reflexivity.
  Qed.
End Trees.
