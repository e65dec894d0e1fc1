(** * In a parsed template no two pieces of text follow each other. *)
From Verif Require Import Base Ws Config Nom Ast Lex ParseExpr ParseNode.
Local Open Scope N_scope.

Definition is_lit (n : node) : bool := match n with NLit _ => true | _ => false end.
(** No two pieces of text in a row, here and in all bodies inside *)
Fixpoint apart (l : list node) : bool :=
  match l with [] => true | n :: l' => negb (is_lit n && match l' with m :: _ => is_lit m | [] => false end) && apart l' end.
Fixpoint tidy (n : node) : bool :=
  let many := fun l => apart l && forallb tidy l in
  match n with
  | NIf _ cs => forallb (fun c => match c with Cond _ _ ns => many ns end) cs
  | NMatch _ _ arms _ => forallb (fun c => match c with When _ _ ns => many ns end) arms
  | NLoop _ _ _ _ body _ els _ => many body && many els
  | NBlockDef _ _ ns _ | NMacro _ _ _ ns _ | NFilterBlock _ _ _ ns _ => many ns
  | _ => true
  end.
Definition tidy_list (l : list node) : bool := apart l && forallb tidy l.

(** What a parser returns, if it succeeds, satisfies [Q]. *)
Definition yields {A} (m : M A) (Q : A -> Prop) : Prop := forall s i r a s', m s i = (POk r a, s') -> Q a.
Definition pyields {A} (p : P A) (Q : A -> Prop) : Prop := forall i r a, p i = POk r a -> Q a.
Lemma yields_true {A} (m : M A) : yields m (fun _ => True).
Proof. repeat intro. exact I. Qed.
Lemma yields_weak {A} (m : M A) (Q Q' : A -> Prop) : yields m Q -> (forall a, Q a -> Q' a) -> yields m Q'.
Proof. intros H K s i r a s' E. apply K. exact (H _ _ _ _ _ E). Qed.
Lemma yields_ret {A} (a : A) (Q : A -> Prop) : Q a -> yields (mret a) Q.
Proof. intros H s i r a' s' [= <- <- <-]. exact H. Qed.
Lemma yields_bind {A B} (m : M A) (k : A -> M B) Q Q' : yields m Q -> (forall a, Q a -> yields (k a) Q') -> yields (mbind m k) Q'.
Proof.
  intros H K s i r a s'. unfold mbind. destruct (m s i) as [[j x|e e'|e e'|] s1] eqn:E; try discriminate. apply (K x (H _ _ _ _ _ E)).
Qed.
Lemma yields_skip {A B} (m : M A) (k : A -> M B) Q' : (forall a, yields (k a) Q') -> yields (mbind m k) Q'.
Proof. intros K. apply (yields_bind m k (fun _ => True)); [apply yields_true|]. intros a _. apply K. Qed.
Lemma yields_cut {A} (m : M A) Q : yields m Q -> yields (mcut m) Q.
Proof. intros H s i r a s'. unfold mcut. destruct (m s i) as [[j x|e e'|e e'|] s1] eqn:E; try discriminate. intros [= <- <- <-]. exact (H _ _ _ _ _ E). Qed.
Lemma yields_opt {A} (m : M A) (Q : A -> Prop) : yields m Q -> yields (mopt m) (fun o => match o with Some a => Q a | None => True end).
Proof. intros H s i r a s'. unfold mopt. destruct (m s i) as [[j x|e e'|e e'|] s1] eqn:E; try discriminate; intros [= <- <- <-]; [exact (H _ _ _ _ _ E)|exact I]. Qed.
Lemma yields_or {A} (m m' : M A) Q : yields m Q -> yields m' Q -> yields (mor m m') Q.
Proof.
  intros H H' s i r a s'. unfold mor. destruct (m s i) as [[j x|e e'|e e'|] s1] eqn:E; try discriminate; [intros [= <- <- <-]; exact (H _ _ _ _ _ E)|]. apply H'.
Qed.
Lemma yields_lift {A} (p : P A) Q : pyields p Q -> yields (lift p) Q.
Proof. intros H s i r a s'. unfold lift. intros [= E <-]. exact (H _ _ _ E). Qed.
Lemma yields_many0 {A} (m : M A) (Q : A -> Prop) : yields m Q -> yields (mmany0 m) (Forall Q).
Proof.
  intros H s i. unfold mmany0. generalize (S (length i)) as n. intros n. revert s i. induction n as [|n IH]; intros s i r l s'; cbn [mmany0_fuel]; [discriminate|].
  destruct (m s i) as [[j x|e e'|e e'|] s1] eqn:E; try discriminate; [|intros [= <- <- <-]; constructor].
  destruct (Nat.eqb (length j) (length i)); [discriminate|]. destruct (mmany0_fuel n m s1 j) as [[j' l'|e e'|e e'|] s2] eqn:E2; try discriminate.
  intros [= <- <- <-]. constructor; [exact (H _ _ _ _ _ E)|]. exact (IH _ _ _ _ _ E2).
Qed.
Lemma yields_many1 {A} (m : M A) (Q : A -> Prop) : yields m Q -> yields (mmany1 m) (Forall Q).
Proof. intros H. unfold mmany1. eapply yields_bind; [exact H|]. intros a Ha. eapply yields_bind; [apply yields_many0, H|]. intros l Hl. apply yields_ret. constructor; assumption. Qed.
Lemma yields_in_loop {A} (m : M A) Q : yields m Q -> yields (in_loop m) Q.
Proof.
  intros H s i r a s'. unfold in_loop. destruct (m _ i) as [x s1] eqn:E. destruct (loop_depth s1); [discriminate|]. intros [= -> <-]. exact (H _ _ _ _ _ E).
Qed.
Lemma pyields_skip {A B} (p : P A) (k : A -> P B) Q' : (forall a, pyields (k a) Q') -> pyields (pbind p k) Q'.
Proof. intros K i r b. unfold pbind. destruct (p i) as [j x|e e'|e e'|] eqn:E; try discriminate. apply K. Qed.
Lemma pyields_ret {A} (a : A) (Q : A -> Prop) : Q a -> pyields (pret a) Q.
Proof. intros H i r b [= <- <-]. exact H. Qed.
Lemma pyields_cut {A} (p : P A) Q : pyields p Q -> pyields (cut p) Q.
Proof. intros H i r a. unfold cut. destruct (p i) as [j x|e e'|e e'|] eqn:E; try discriminate. intros [= <- <-]. exact (H _ _ _ E). Qed.

Section Apart.
  Variables (lc : N -> bool) (dbg : str -> str) (sy : syntax).
  (** A tag: not text, and tidy inside *)
  Definition tag_ok (n : node) : Prop := is_lit n = false /\ tidy n = true.
  Definition list_tidy (l : list node) : Prop := tidy_list l = true.
  Lemma y_expr : yields (expr_node lc dbg sy) tag_ok.
  Proof. unfold expr_node. apply yields_skip; intros [w e]. apply yields_skip; intros [w2 [|]]; [apply yields_ret; split; reflexivity|]. apply yields_lift. discriminate. Qed.
  Lemma y_brk kw mk : (forall h, tag_ok (mk h)) -> yields (brk kw mk) tag_ok.
  Proof.
    intros H s i r a s'. unfold brk. match goal with |- context [match ?p with _ => _ end] => destruct p as [j x|e e'|e e'|]; try discriminate end.
    destruct (loop_depth s); [discriminate|]. intros [= <- <- <-]. apply H.
  Qed.
  Section Body.
    Variable many : M (list node).
    Hypothesis HM : yields many list_tidy.
    Ltac ysteps := repeat lazymatch goal with
      | |- yields (mbind ?m _) _ => lazymatch m with context [many] => fail | _ => apply yields_skip; intros ? end
      | |- yields (mcut _) _ => apply yields_cut
      | |- yields (lift _) _ => apply yields_lift
      | |- pyields (pbind _ _) _ => apply pyields_skip; intros ?
      | |- pyields (cut _) _ => apply pyields_cut
      end.
    Definition when_tidy (x : when_) : Prop := match x with When _ _ ns => list_tidy ns end.
    Definition cond_tidy (x : cond) : Prop := match x with Cond _ _ ns => list_tidy ns end.
    Lemma y_when_else : yields (when_else sy many) when_tidy.
    Proof. unfold when_else. ysteps. eapply yields_bind; [apply yields_cut, HM|]. intros ns Hns. apply yields_ret. exact Hns. Qed.
    Lemma y_when_when : yields (when_when lc sy many) when_tidy.
    Proof. unfold when_when. ysteps. eapply yields_bind; [apply yields_cut, HM|]. intros ns Hns. apply yields_ret. exact Hns. Qed.
    Lemma y_cond : yields (cond_parse lc sy many) cond_tidy.
    Proof. unfold cond_parse. ysteps. eapply yields_bind; [apply yields_cut, HM|]. intros ns Hns. apply yields_ret. exact Hns. Qed.
    Lemma y_if : yields (if_parse lc sy many) tag_ok.
    Proof.
      unfold if_parse. ysteps. eapply yields_bind; [apply HM|]. intros ns Hns. eapply yields_bind; [apply yields_many0, y_cond|]. intros cs Hcs. ysteps. apply yields_ret.
      split; [reflexivity|]. cbn [tidy forallb]. apply andb_true_intro. split; [exact Hns|]. apply forallb_forall. intros [w t l] Hin. rewrite Forall_forall in Hcs. exact (Hcs _ Hin).
    Qed.
    Lemma y_else : yields (else_block sy many) (fun x => list_tidy (snd (fst x))).
    Proof. unfold else_block. ysteps. eapply yields_bind; [apply HM|]. intros ns Hns. ysteps. apply yields_ret. exact Hns. Qed.
    Lemma y_loop : yields (loop_parse lc sy many) tag_ok.
    Proof.
      unfold loop_parse. ysteps. eapply yields_bind; [apply yields_in_loop, HM|]. intros body Hb. ysteps. eapply yields_bind; [apply yields_opt, y_else|]. intros els Hels. ysteps.
      destruct els as [[[w5 ns] w6]|]; apply yields_ret; (split; [reflexivity|]); cbn [tidy]; unfold list_tidy, tidy_list in *; [cbn [fst snd] in Hels|]; rewrite Hb; [exact Hels|reflexivity].
    Qed.
    Lemma y_macro : yields (macro_parse sy many) tag_ok.
    Proof.
      intros s i. unfold macro_parse.
      match goal with |- forall r a s', ?m s i = _ -> _ => enough (Y : yields m tag_ok) by (intros r a s' E; exact (Y _ _ _ _ _ E)) end.
      apply yields_skip; intros [[[w1 name] params] w2]. destruct (str_eqb name (lit "super")); [intros ? ? ? ? ?; discriminate|]. ysteps. eapply yields_bind; [apply HM|]. intros ns Hns. ysteps.
      apply yields_ret. split; [reflexivity|exact Hns].
    Qed.
    Lemma y_filter : yields (filter_block_parse lc sy many) tag_ok.
    Proof.
      unfold filter_block_parse. apply yields_skip; intros w1. apply yields_skip; intros x0. apply yields_skip; intros [[[name ps] extra] w2].
      destruct (fold_left _ extra _) as [fname fargs]. ysteps. eapply yields_bind; [apply HM|]. intros ns Hns. ysteps. apply yields_ret. split; [reflexivity|exact Hns].
    Qed.
    Lemma y_match : yields (match_parse lc dbg sy many) tag_ok.
    Proof.
      unfold match_parse. ysteps. eapply yields_bind; [apply yields_many1, y_when_when|].
      intros arms Ha. ysteps. eapply yields_bind; [apply yields_opt, y_when_else|]. intros els Hels. ysteps. apply yields_ret. split; [reflexivity|]. cbn [tidy].
      apply forallb_forall. intros [w t l] Hin. apply in_app_or in Hin as [Hin|Hin]; [rewrite Forall_forall in Ha; exact (Ha _ Hin)|]. destruct els as [x|]; [destruct Hin as [->|[]]; exact Hels|destruct Hin].
    Qed.
    Lemma y_block : yields (blockdef_parse sy many) tag_ok.
    Proof.
      unfold blockdef_parse. apply yields_skip; intros w1. apply yields_skip; intros x0. apply yields_skip; intros [name w2]. ysteps. eapply yields_bind; [apply HM|]. intros ns Hns. ysteps.
      apply yields_ret. split; [reflexivity|exact Hns].
    Qed.
    Lemma y_kind t p : block_kind lc dbg sy many t = Some p -> yields p tag_ok.
    Proof.
      unfold block_kind. repeat match goal with |- (if ?c then _ else _) = _ -> _ => destruct c; [intros [= <-]|] end; try discriminate.
      - unfold call_parse. ysteps. apply yields_ret. split; reflexivity.
      - unfold let_parse. ysteps. apply yields_ret. split; reflexivity.
      - apply y_if.
      - apply y_loop.
      - apply y_match.
      - apply yields_lift. intros i. unfold extends_parse.
        match goal with |- forall r a, ?m i = _ -> _ => enough (Y : pyields m tag_ok) by (intros r a E; exact (Y _ _ _ E)) end.
        apply pyields_skip; intros w1. apply pyields_skip; intros x0. apply pyields_skip; intros [p w2]. destruct w1; [intros ? ? ?; discriminate|]. destruct w2; [intros ? ? ?; discriminate|].
        apply pyields_ret. split; reflexivity.
      - unfold include_parse. ysteps. apply pyields_ret. split; reflexivity.
      - unfold import_parse. ysteps. apply pyields_ret. split; reflexivity.
      - apply y_block.
      - apply y_macro.
      - unfold raw_parse. apply yields_lift. apply pyields_skip; intros w1. apply pyields_skip; intros x0. apply pyields_cut. apply pyields_skip; intros w2. apply pyields_skip; intros x1.
        apply pyields_skip; intros [c [j [w3 w4]]]. intros i r a [= <- <-]. split; reflexivity.
      - apply y_brk. split; reflexivity.
      - apply y_brk. split; reflexivity.
      - apply y_filter.
    Qed.
  End Body.
  Lemma y_node_parse many : match many with Some m => yields m list_tidy | None => True end -> yields (node_parse lc dbg sy many) tag_ok.
  Proof.
    intros HM s i r a s'. unfold node_parse. destruct (block_tag sy i) as [j t|e m|e m|]; try discriminate.
    destruct (block_kind _ _ _ _ t) as [f|] eqn:EK; [|discriminate]. destruct (st_nest s j) as [[j' u|e m|e m|] s1]; try discriminate.
    destruct many as [m|].
    - destruct (f s1 j') as [x s2] eqn:EF. destruct (st_leave (x, s2)) as [[r1 n|e e'|e e'|] s3] eqn:EL; try discriminate. intros [= EC <-].
      assert (tag_ok n). { unfold st_leave in EL. cbn [fst snd] in EL. destruct (level s2); injection EL as; [discriminate|]. subst x. exact (y_kind m HM _ _ EK _ _ _ _ _ EF). }
      unfold block_close, pbind in EC. destruct (cut _ r1) as [r2 b|e e'|e e'|]; try discriminate. destruct b; [|discriminate]. injection EC as _ <-. assumption.
    - unfold st_leave. cbn [fst snd]. destruct (level s1); discriminate.
  Qed.
  Lemma y_comment : yields (lift (pmap (fun '(w, c) => NComment w c) (comment_parse dbg sy))) tag_ok.
  Proof. apply yields_lift. intros i r a. unfold pmap. destruct (comment_parse dbg sy i) as [j [w c]|e m|e m|]; try discriminate. intros [= <- <-]. split; reflexivity. Qed.

  (** After text comes a tag or the end. *)
  Lemma skip_till_stops {A} (p : P A) i r j a : skip_till p i = POk r (j, a) -> p r = POk j a.
  Proof.
    induction i as [|c i IH]; cbn [skip_till].
    - destruct (p []) as [r' a'|e m|e m|] eqn:E; try discriminate. intros [= <- <- <-]. exact E.
    - destruct (p (c :: i)) as [r' a'|e m|e m|] eqn:E; try discriminate; [intros [= <- <- <-]; exact E|exact IH].
  Qed.
  Lemma skip_till_now {A} (p : P A) r j a : p r = POk j a -> skip_till p r = POk r (j, a).
  Proof. intros E. destruct r; cbn [skip_till]; rewrite E; reflexivity. Qed.
  Lemma lit_then i r l : lit_parse sy i = POk r l -> forall r' l', lit_parse sy r <> POk r' l'.
  Proof.
    unfold lit_parse. destruct i as [|c i]; [discriminate|]. destruct (skip_till _ (c :: i)) as [r1 [j a]|e m|e m|] eqn:E; try discriminate.
    - destruct (before (c :: i) r1); [discriminate|]. intros [= <- <-] r' l'. destruct r1 as [|c1 r1]; [discriminate|].
      apply skip_till_stops, skip_till_now in E. rewrite E. unfold before. rewrite Nat.sub_diag. discriminate.
    - intros [= <- <-]. discriminate.
  Qed.
  Lemma one_cases many s i r n s' : match many with Some m => yields m list_tidy | None => True end -> node_one lc dbg sy many s i = (POk r n, s') ->
    (exists l, n = NLit l /\ lit_parse sy i = POk r l) \/ (tag_ok n /\ forall r' l', lit_parse sy i <> POk r' l').
  Proof.
    intros HM. unfold node_one. unfold mor at 1. unfold lift at 1, pmap at 1.
    destruct (lit_parse sy i) as [j l|e m|e m|] eqn:EL; try discriminate.
    - intros [= <- <- <-]. left. eauto.
    - intros E. right. split; [|discriminate]. refine (yields_or _ _ _ y_comment _ _ _ _ _ _ E). apply yields_or; [apply y_expr|apply y_node_parse, HM].
  Qed.
  Lemma many_tidy many : match many with Some m => yields m list_tidy | None => True end -> yields (mmany0 (node_one lc dbg sy many)) list_tidy.
  Proof.
    intros HM s i. unfold mmany0. generalize (S (length i)) as n. intros n.
    enough (H : forall s i r l s', mmany0_fuel n (node_one lc dbg sy many) s i = (POk r l, s') -> list_tidy l /\
                ((forall r' x, lit_parse sy i <> POk r' x) -> match l with m :: _ => is_lit m = false | [] => True end))
      by (intros r l s' E; exact (proj1 (H _ _ _ _ _ E))).
    clear s i. induction n as [|n IH]; intros s i r l s'; cbn [mmany0_fuel]; [discriminate|].
    destruct (node_one lc dbg sy many s i) as [[j x|e e'|e e'|] s1] eqn:E; try discriminate; [|intros [= <- <- <-]; split; [reflexivity|intros _; exact I]].
    destruct (Nat.eqb (length j) (length i)); [discriminate|]. destruct (mmany0_fuel n _ s1 j) as [[j' l'|e e'|e e'|] s2] eqn:E2; try discriminate.
    intros [= <- <- <-]. destruct (IH _ _ _ _ _ E2) as [T F]. unfold list_tidy, tidy_list in *. apply andb_prop in T as [T1 T2].
    destruct (one_cases _ _ _ _ _ _ HM E) as [(y & -> & L)|[[H1 H2] L]].
    - specialize (F (lit_then _ _ _ L)). split; [|intros K; destruct (K _ _ L)]. cbn [apart forallb tidy is_lit andb]. rewrite T1, T2. destruct l' as [|m l']; [reflexivity|]. rewrite F. reflexivity.
    - split; [|intros _; exact H1]. cbn [apart forallb]. rewrite H1, H2, T1, T2. reflexivity.
  Qed.
  Theorem node_many_tidy d : yields (node_many lc dbg sy d) list_tidy.
  Proof. induction d as [|d IH]; cbn [node_many]; apply many_tidy; [exact I|exact IH]. Qed.
  Theorem from_str_tidy src ns : from_str lc dbg sy src = Some (inl ns) -> tidy_list ns = true.
  Proof.
    unfold from_str, parse_template, mbind at 1. destruct (node_many lc dbg sy MAX_DEPTH state0 src) as [[r l|e m|e m|] s1] eqn:E; try discriminate.
    unfold mbind, lift, mret. destruct (cut eof r) as [r2 u|e m|e m|]; try discriminate. cbn [fst]. destruct r2; [|discriminate]. intros [= <-]. exact (node_many_tidy _ _ _ _ _ _ E).
  Qed.
End Apart.
