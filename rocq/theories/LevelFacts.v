(** * Siblings and the nesting level. *)
From Verif Require Import Base Config ConfigFacts Nom Ws Ast Lex ParseExpr ParseNode NomFacts LexFacts LitSpec LitFacts ParseSpec TreeSpec ExprFacts WsFacts NodeFacts TplFacts TextFacts.
From Coq Require Import ZifyBool ZifyNat ZifyN.
Local Open Scope N_scope.

(** [run p s i l s' r]: reading items with [p] one after the other from [i] gives [l] and leaves [r]. *)
Inductive run {A} (p : M A) : pstate -> str -> list A -> pstate -> str -> Prop :=
| run_nil s i : run p s i [] s i
| run_cons s i a s1 r l s2 r2 : p s i = (POk r a, s1) -> r <> i -> run p s1 r l s2 r2 -> run p s i (a :: l) s2 r2.

Section Fuel.
  Context {A : Type}.
  Variables (p : M A) (Inv : pstate -> Prop).
  Hypothesis Hp : forall s i r a s', Inv s -> p s i = (POk r a, s') -> suffix r i /\ Inv s'.
  Lemma many_fuel n : forall m s i, Inv s -> (length i < n)%nat -> (length i < m)%nat -> mmany0_fuel n p s i = mmany0_fuel m p s i.
  Proof.
    induction n as [|n IH]; intros m s i Hs Hn Hm; [lia|]. destruct m as [|m]; [lia|]. cbn [mmany0_fuel].
    destruct (p s i) as [[r a|e x|e x|] s'] eqn:E; auto. destruct (Nat.eqb_spec (length r) (length i)) as [|Hl]; auto.
    destruct (Hp _ _ _ _ _ Hs E) as [Hr Hs']. pose proof (suffix_len _ _ Hr). rewrite (IH m s' r) by (auto; lia). reflexivity.
  Qed.
  Lemma run_many s i l s' r : run p s i l s' r -> Inv s ->
    mmany0 p s i = match mmany0 p s' r with (POk r2 l2, s2) => (POk r2 (l ++ l2), s2) | x => x end.
  Proof.
    induction 1 as [s i|s i a s1 r l s2 r2 E Hr H IH]; intros Hi.
    - destruct (mmany0 p s i) as [[]]; reflexivity.
    - unfold mmany0 at 1. cbn [mmany0_fuel]. rewrite E. destruct (Hp _ _ _ _ _ Hi E) as [Hs Hi']. pose proof (suffix_len _ _ Hs) as Hl.
      destruct (Nat.eqb_spec (length r) (length i)) as [X|Hl']; [destruct Hr; now apply suffix_len_eq|].
      rewrite (many_fuel (length i) (S (length r)) s1 r Hi' ltac:(lia) ltac:(lia)). change (mmany0_fuel (S (length r)) p s1 r) with (mmany0 p s1 r). rewrite IH by auto.
      destruct (mmany0 p s2 r2) as [[]]; reflexivity.
  Qed.
  Lemma run_inv s i l s' r : run p s i l s' r -> Inv s -> Inv s' /\ suffix r i.
  Proof.
    induction 1 as [s i|s i a s1 r l s2 r2 E Hr H IH]; intros Hi; [auto|]. destruct (Hp _ _ _ _ _ Hi E) as [Hs Hi']. destruct (IH Hi') as [H1 H2].
    split; auto. eapply suffix_trans; eauto.
  Qed.
End Fuel.

Section Siblings.
  Variables (lc : N -> bool) (dbg : str -> str) (sy : syntax).
  Hypothesis Hsy : tags_nonempty sy.
  (** The top-level loop over the nodes of a template. *)
  Definition top_node : M node := node_one lc dbg sy (Some (node_many lc dbg sy 127)).
  Lemma top_node_inv s i r a s' : loop_depth s = O -> top_node s i = (POk r a, s') -> suffix r i /\ loop_depth s' = O /\ (level s <= level s')%nat.
  Proof.
    intros Hs E. assert (G : goodm i MAX_DEPTH 0 top_node (wf_node false)).
    { unfold top_node. apply (goodm_node_one lc dbg sy Hsy i MAX_DEPTH 0). exists 127%nat. split; [reflexivity|]. intros k. now apply goodm_node_many. }
    specialize (G s i (suffix_refl i) ltac:(unfold MAX_DEPTH; lia) Hs). rewrite E in G. destruct G as (G1 & G2 & G3 & _). auto.
  Qed.
  (** The level never goes down over a sequence of siblings. *)
  Theorem level_monotone s i l s' r : loop_depth s = O -> run top_node s i l s' r -> (level s <= level s')%nat /\ loop_depth s' = O.
  Proof.
    intros Hs H. induction H as [s i|s i a s1 r l s2 r2 E Hr H IH]; [auto|]. destruct (top_node_inv _ _ _ _ _ Hs E) as (_ & H1 & H2).
    destruct (IH H1). split; [lia|auto].
  Qed.
  (** After siblings that return to the level they started from, the rest is parsed as if it stood alone. *)
  Theorem siblings_forgotten src l s r : run top_node state0 src l s r -> level s = O ->
    parse_template lc dbg sy src = match parse_template lc dbg sy r with POk x l' => POk x (l ++ l') | e => e end.
  Proof.
    intros H Hl. assert (Hp : forall s i r a s', loop_depth s = O -> top_node s i = (POk r a, s') -> suffix r i /\ loop_depth s' = O).
    { intros s0 i0 r0 a0 s1 A B. destruct (top_node_inv _ _ _ _ _ A B) as (X & Y & _). auto. }
    destruct (level_monotone state0 src l s r eq_refl H) as [_ Hd]. assert (s = state0) by (destruct s; cbn in *; subst; reflexivity). subst s.
    pose proof (run_many top_node (fun s => loop_depth s = O) Hp _ _ _ _ _ H eq_refl) as K. unfold parse_template, mbind at 1. 
    change (node_many lc dbg sy MAX_DEPTH) with (mmany0 top_node). rewrite K. unfold mbind at 2.
    destruct (mmany0 top_node state0 r) as [[r2 l2|e m|e m|] s2]; try reflexivity. cbn [fst]. unfold mbind, lift, mret, cut, eof.
    destruct r2 as [|c r2]; reflexivity.
  Qed.
End Siblings.
