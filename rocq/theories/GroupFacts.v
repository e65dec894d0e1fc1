(** * Facts behind Prop_Group.v: what Rust reads where the generator wrote an expression. *)
From Verif Require Import Base Ws Ast Ident IdentFacts GenExpr Heritage Gen LitSpec TreeSpec ParseSpec Sem RefSem RexprFacts SimExpr ReadSpec ReadFacts GroupSpec.
From Coq Require Import Lia.
Local Open Scope N_scope.

(** ** Moving [&] to where Rust reads it *)
(** A field, index or call belongs to the operand of the [&] before it. *)
Fixpoint under (F : rexpr -> rexpr) (e : rexpr) : rexpr := match e with RRef e' => RRef (under F e') | e => F e end.
(** An [&] before an operator belongs to the left operand. *)
Fixpoint borrow (e : rexpr) : rexpr :=
  match e with
  | RBin op l r => RBin op (borrow l) r
  | RRange op (Some l) r => RRange op (Some (borrow l)) r
  | e => RRef e
  end.
Fixpoint reading (e : rexpr) : rexpr :=
  let arg (a : bool * bool * rexpr) := match a with (b, c, e) => (b, c, reading e) end in
  match e with
  | RRef e => borrow (reading e)
  | RField e x => under (fun o => RField o x) (reading e)
  | RIndex e i => under (fun o => RIndex o (reading i)) (reading e)
  | RCall f l => under (fun o => RCall o (map arg l)) (reading f)
  | RArr l => RArr (map reading l)
  | RTup l => RTup (map reading l)
  | RDeref e => RDeref (reading e)
  | RUn op e => RUn op (reading e)
  | RBin op l r => RBin op (reading l) (reading r)
  | RRange op l r => RRange op (option_map reading l) (option_map reading r)
  | RGrp e => RGrp (reading e)
  | RCycle e => RCycle (reading e)
  | RTry e => RTry (reading e)
  | RFilter b x l => RFilter b x (map arg l)
  | RSafe x a => RSafe x (arg a)
  | REscape x a => REscape x (arg a)
  | RFormat x l => RFormat x (map arg l)
  | RJoin l => RJoin (map reading l)
  | RMarkup x e => RMarkup x (reading e)
  | e => e
  end.

(** ** The text and the tree without [&] stay the same *)
Lemma spaced_borrow e : spaced (borrow e) = TOp (lit "&") :: spaced e.
Proof.
  induction e using rexpr_ind'; try reflexivity.
  - cbn [borrow spaced]. rewrite IHe1. reflexivity.
  - destruct l as [l|]; [|reflexivity]. cbn [borrow spaced]. cbn in H. rewrite H. reflexivity.
Qed.
Lemma spaced_under F s e : (forall o, spaced (F o) = spaced o ++ s) -> spaced (under F e) = spaced e ++ s.
Proof. intros HF. induction e; cbn [under]; try apply HF. cbn [spaced]. rewrite IHe. reflexivity. Qed.
Lemma map_same {A B} (f : A -> A) (g : A -> B) l : Forall (fun a => g (f a) = g a) l -> map g (map f l) = map g l.
Proof. induction 1 as [|a l H _ IH]; cbn [map]; [reflexivity|]. rewrite H, IH. reflexivity. Qed.
Lemma spaced_reading e : spaced (reading e) = spaced e.
Proof.
  assert (L : forall l, Forall (fun e => spaced (reading e) = spaced e) l -> map spaced (map reading l) = map spaced l) by (intros; apply map_same; assumption).
  assert (A1 : forall a : bool * bool * rexpr, spaced (reading (snd a)) = spaced (snd a) -> arg_spaced (match a with (b, c, e) => (b, c, reading e) end) = arg_spaced a).
  { intros [[b c] e'] He. cbn [snd] in He. unfold arg_spaced. rewrite He. reflexivity. }
  assert (A : forall l, PArgs (fun e => spaced (reading e) = spaced e) l ->
    map arg_spaced (map (fun a : bool * bool * rexpr => match a with (b, c, e) => (b, c, reading e) end) l) = map arg_spaced l).
  { intros l H. apply map_same. eapply Forall_impl; [|exact H]. intros a. apply A1. }
  induction e using rexpr_ind'; cbn [reading]; try reflexivity.
  - cbn [spaced]. rewrite L by assumption. reflexivity.
  - cbn [spaced]. rewrite (map_same reading (fun e => spaced e ++ [TSep]) l); [reflexivity|]. eapply Forall_impl; [|exact H]. intros a ->. reflexivity.
  - rewrite (spaced_under _ [TDot x]); [rewrite IHe; reflexivity|reflexivity].
  - rewrite (spaced_under _ (between OArray (spaced e2))); [rewrite IHe1; reflexivity|]. intros o. cbn [spaced]. rewrite IHe2. reflexivity.
  - rewrite spaced_borrow, IHe. reflexivity.
  - cbn [spaced]. rewrite IHe. reflexivity.
  - cbn [spaced]. rewrite IHe. reflexivity.
  - cbn [spaced]. rewrite IHe1, IHe2. reflexivity.
  - cbn [spaced]. destruct l as [l|], r as [r|]; cbn [option_map POpt] in *; rewrite ?H, ?H0; reflexivity.
  - cbn [spaced]. rewrite IHe. reflexivity.
  - cbn [spaced]. rewrite IHe. reflexivity.
  - rewrite (spaced_under _ (between OGroup (sep_toks comma (map arg_spaced l)))); [rewrite IHe; reflexivity|]. intros o.
    change (spaced o ++ between OGroup (sep_toks comma (map arg_spaced (map (fun a : bool * bool * rexpr => match a with (b, c, e) => (b, c, reading e) end) l))) = spaced o ++ between OGroup (sep_toks comma (map arg_spaced l))).
    rewrite A by assumption. reflexivity.
  - cbn [spaced]. rewrite IHe. reflexivity.
  - change (between (OFilter b x) (sep_toks comma (map arg_spaced (map (fun a : bool * bool * rexpr => match a with (b, c, e) => (b, c, reading e) end) l))) = between (OFilter b x) (sep_toks comma (map arg_spaced l))).
    rewrite A by assumption. reflexivity.
  - change (between (OSafe x) (arg_spaced (match a with (b, c, e) => (b, c, reading e) end)) = between (OSafe x) (arg_spaced a)). rewrite A1 by assumption. reflexivity.
  - change (between (OEscape x) (arg_spaced (match a with (b, c, e) => (b, c, reading e) end)) = between (OEscape x) (arg_spaced a)). rewrite A1 by assumption. reflexivity.
  - destruct l as [|a l]; [reflexivity|].
    change (between (OFormat x) (TBlank (lit ", ") :: sep_toks comma (map arg_spaced (map (fun a : bool * bool * rexpr => match a with (b, c, e) => (b, c, reading e) end) (a :: l)))) =
            between (OFormat x) (TBlank (lit ", ") :: sep_toks comma (map arg_spaced (a :: l)))).
    rewrite A by assumption. reflexivity.
  - destruct l as [|a l]; [reflexivity|]. inversion H as [|? ? H1 H2]; subst. cbn [map spaced]. rewrite H1. rewrite (map_same reading (fun e => comma ++ spaced e) l); [reflexivity|].
    eapply Forall_impl; [|exact H2]. intros b ->. reflexivity.
  - cbn [spaced]. rewrite IHe. reflexivity.
Qed.
Lemma toks_reading e : toks (reading e) = toks e.
Proof. unfold toks. rewrite spaced_reading. reflexivity. Qed.
Lemma unref_borrow e : unref (borrow e) = unref e.
Proof.
  induction e using rexpr_ind'; try reflexivity.
  - cbn [borrow unref]. rewrite IHe1. reflexivity.
  - destruct l as [l|]; [|reflexivity]. cbn [borrow unref option_map]. cbn in H. rewrite H. reflexivity.
Qed.
Lemma unref_under F G e : (forall o, unref (F o) = G (unref o)) -> unref (under F e) = G (unref e).
Proof. intros HF. induction e; cbn [under]; try apply HF. cbn [unref]. exact IHe. Qed.
Lemma unref_reading e : unref (reading e) = unref e.
Proof.
  assert (L : forall l, Forall (fun e => unref (reading e) = unref e) l -> map unref (map reading l) = map unref l) by (intros; apply map_same; assumption).
  assert (A : forall l, PArgs (fun e => unref (reading e) = unref e) l ->
    map (fun a : bool * bool * rexpr => match a with (b, c, e) => (b, c, unref e) end) (map (fun a : bool * bool * rexpr => match a with (b, c, e) => (b, c, reading e) end) l) =
    map (fun a : bool * bool * rexpr => match a with (b, c, e) => (b, c, unref e) end) l).
  { intros l H. apply map_same. eapply Forall_impl; [|exact H]. intros [[b c] e'] He. cbn [snd] in He. rewrite He. reflexivity. }
  induction e using rexpr_ind'; cbn [reading]; try reflexivity; try solve [cbn [unref]; rewrite ?L, ?A, ?IHe, ?IHe1, ?IHe2 by assumption; reflexivity].
  - rewrite (unref_under _ (fun o => RField o x)); [rewrite IHe; reflexivity|reflexivity].
  - rewrite (unref_under _ (fun o => RIndex o (unref e2))); [rewrite IHe1; reflexivity|]. intros o. cbn [unref]. rewrite IHe2. reflexivity.
  - rewrite unref_borrow, IHe. reflexivity.
  - cbn [unref]. destruct l as [l|], r as [r|]; cbn [option_map POpt] in *; rewrite ?H, ?H0; reflexivity.
  - rewrite (unref_under _ (fun o => RCall o (map (fun a : bool * bool * rexpr => match a with (b, c, e) => (b, c, unref e) end) l))); [rewrite IHe; reflexivity|].
    intros o. cbn [unref]. rewrite A by assumption. reflexivity.
  - destruct a as [[b c] e']. cbn [unref snd] in *. rewrite IHe. reflexivity.
  - destruct a as [[b c] e']. cbn [unref snd] in *. rewrite IHe. reflexivity.
Qed.

(** ** Tidy trees: what is called is a field in the reading if it is one in the tree. *)
Fixpoint head (e : rexpr) : rexpr := match e with RRef e' => head e' | e => e end.
Definition is_field (e : rexpr) : bool := match e with RField _ _ => true | _ => false end.
Fixpoint tidy (e : rexpr) : bool :=
  let args := forallb (fun a : bool * bool * rexpr => match a with (_, _, e) => tidy e end) in
  match e with
  | RCall f l => Bool.eqb (is_field (head (reading f))) (is_field f) && tidy f && args l
  | RRef e | RField e _ | RDeref e | RUn _ e | RGrp e | RCycle e | RTry e | RMarkup _ e => tidy e
  | RIndex a b | RBin _ a b => tidy a && tidy b
  | RArr l | RTup l | RJoin l => forallb tidy l
  | RRange _ l r => match l with Some l => tidy l | None => true end && match r with Some r => tidy r | None => true end
  | RFilter _ _ l | RFormat _ l => args l
  | RSafe _ (_, _, e) | REscape _ (_, _, e) => tidy e
  | _ => true
  end.

Section Value.
  Variable w : world.
  Variable en : env w.
  Variable st : store w.
  Notation ev := (reval w en st).
  Lemma ev_head e : ev (head e) = ev e.
  Proof. induction e; try reflexivity. exact IHe. Qed.
  Lemma ev_borrow e : ev (borrow e) = ev e.
  Proof.
    induction e using rexpr_ind'; try reflexivity.
    - cbn [borrow reval]. rewrite IHe1. reflexivity.
    - destruct l as [l|]; [|reflexivity]. cbn [borrow reval]. cbn in H. rewrite H. reflexivity.
  Qed.
  Lemma ev_under F e : ev (under F e) = ev (F (head e)).
  Proof. induction e; try reflexivity. exact IHe. Qed.
  Lemma out_map_same {A B} (f : A -> A) (g : A -> out B) l : Forall (fun a => g (f a) = g a) l -> out_map g (map f l) = out_map g l.
  Proof. induction 1 as [|a l H _ IH]; cbn [map out_map]; [reflexivity|]. rewrite H. destruct (g a); cbn; rewrite ?IH; reflexivity. Qed.
  Definition eva (a : bool * bool * rexpr) := match a with (_, _, e) => ev e end.
  Lemma ev_call f l : is_field f = false -> ev (RCall f l) = (let^ v := ev f in let^ vs := out_map eva l in of_opt (w_call w v vs)).
  Proof. destruct f; try reflexivity. discriminate. Qed.
  Lemma ev_filter b x l : ev (RFilter b x l) = (let^ vs := out_map eva l in of_opt (w_filter w b x vs)).
  Proof. reflexivity. Qed.
  Lemma ev_format x l : ev (RFormat x l) = (let^ vs := out_map eva l in of_opt (w_format w x vs)).
  Proof. reflexivity. Qed.
  Lemma head_field x e : head (under (fun o => RField o x) e) = RField (head e) x.
  Proof. induction e; try reflexivity. exact IHe. Qed.
  (** With the value of the object of a field, which a method call needs. *)
  Definition vals (e : rexpr) : Prop := tidy e = true -> ev (reading e) = ev e /\ forall o y, e = RField o y -> ev (reading o) = ev o.
  Lemma vals_of e : (forall o y, e <> RField o y) -> (tidy e = true -> ev (reading e) = ev e) -> vals e.
  Proof. intros H1 H2 T. split; [auto|]. intros o y ->. now elim (H1 o y). Qed.
  Lemma vals_list l : Forall vals l -> forallb tidy l = true -> out_map ev (map reading l) = out_map ev l.
  Proof. intros H T. apply out_map_same. rewrite Forall_forall in *. rewrite forallb_forall in T. intros x Hx. exact (proj1 (H x Hx (T x Hx))). Qed.
  Lemma vals_args l : PArgs vals l -> forallb (fun a : bool * bool * rexpr => match a with (_, _, e) => tidy e end) l = true ->
    out_map eva (map (fun a : bool * bool * rexpr => match a with (b, c, e) => (b, c, reading e) end) l) = out_map eva l.
  Proof.
    intros H T. apply out_map_same. unfold PArgs in H. rewrite Forall_forall in *. rewrite forallb_forall in T. intros [[b c] x] Hx. exact (proj1 (H _ Hx (T _ Hx))).
  Qed.
  Lemma vals_all e : vals e.
  Proof.
    induction e using rexpr_ind'; try solve [apply vals_of; [discriminate|reflexivity]].
    - apply vals_of; [discriminate|]. intros T. cbn [reading reval]. rewrite vals_list by assumption. reflexivity.
    - apply vals_of; [discriminate|]. intros T. cbn [reading reval]. rewrite vals_list by assumption. reflexivity.
    - intros T. destruct (IHe T) as [V _]. split; [|intros o y [= <- <-]; exact V]. cbn [reading]. rewrite ev_under. cbn [reval]. rewrite ev_head, V. reflexivity.
    - apply vals_of; [discriminate|]. intros T. apply andb_prop in T as [T1 T2]. cbn [reading]. rewrite ev_under. cbn [reval]. rewrite ev_head, (proj1 (IHe1 T1)), (proj1 (IHe2 T2)). reflexivity.
    - apply vals_of; [discriminate|]. intros T. cbn [reading]. rewrite ev_borrow. exact (proj1 (IHe T)).
    - apply vals_of; [discriminate|]. intros T. exact (proj1 (IHe T)).
    - apply vals_of; [discriminate|]. intros T. cbn [reading reval]. rewrite (proj1 (IHe T)). reflexivity.
    - apply vals_of; [discriminate|]. intros T. apply andb_prop in T as [T1 T2]. cbn [reading reval]. rewrite (proj1 (IHe1 T1)), (proj1 (IHe2 T2)). reflexivity.
    - apply vals_of; [discriminate|]. intros T. apply andb_prop in T as [T1 T2]. cbn [reading reval].
      destruct l as [l|], r as [r|]; cbn [option_map POpt] in *; rewrite ?(proj1 (H T1)), ?(proj1 (H0 T2)); reflexivity.
    - apply vals_of; [discriminate|]. intros T. exact (proj1 (IHe T)).
    - apply vals_of; [discriminate|]. intros T. cbn [reading reval]. rewrite (proj1 (IHe T)). reflexivity.
    - apply vals_of; [discriminate|]. intros T. cbn [tidy] in T. apply andb_prop in T as [T T3]. apply andb_prop in T as [T1 T2]. apply Bool.eqb_prop in T1.
      destruct (IHe T2) as [V VF]. cbn [reading]. rewrite ev_under. pose proof (vals_args l H T3) as A. destruct (is_field e) eqn:FE.
      + destruct e as [| | | | | | |o y| | | | | | | | | | | | | | | | | ]; try discriminate FE. cbn [reading]. rewrite head_field.
        specialize (VF o y eq_refl). change (ev (RCall (RField (head (reading o)) y) (map (fun a : bool * bool * rexpr => match a with (b, c, e) => (b, c, reading e) end) l)))
          with (let^ v := ev (head (reading o)) in let^ vs := out_map eva (map (fun a : bool * bool * rexpr => match a with (b, c, e) => (b, c, reading e) end) l) in of_opt (w_method w v (unraw y) vs)).
        rewrite ev_head, VF, A. reflexivity.
      + rewrite !ev_call by assumption. rewrite ev_head, V, A. reflexivity.
    - apply vals_of; [discriminate|]. intros T. cbn [reading reval]. rewrite (proj1 (IHe T)). reflexivity.
    - apply vals_of; [discriminate|]. intros T. pose proof (vals_args l H T) as A. cbn [reading]. rewrite !ev_filter, A. reflexivity.
    - apply vals_of; [discriminate|]. intros T. destruct a as [[b c] e']. cbn [reading reval snd] in *. rewrite (proj1 (IHe T)). reflexivity.
    - apply vals_of; [discriminate|]. intros T. destruct a as [[b c] e']. cbn [reading reval snd] in *. rewrite (proj1 (IHe T)). reflexivity.
    - apply vals_of; [discriminate|]. intros T. pose proof (vals_args l H T) as A. cbn [reading]. rewrite !ev_format, A. reflexivity.
    - apply vals_of; [discriminate|]. intros T. cbn [reading reval]. rewrite vals_list by assumption. reflexivity.
    - apply vals_of; [discriminate|]. intros T. cbn [reading reval]. rewrite (proj1 (IHe T)). reflexivity.
  Qed.
  Lemma ev_reading e : tidy e = true -> ev (reading e) = ev e.
  Proof. intros T. exact (proj1 (vals_all e T)). Qed.
End Value.

(** ** Grammar *)
Lemma firm_borrow e : firmness (borrow e) = match e with RBin _ _ _ | RRange _ (Some _) _ => firmness e | _ => if range_first e then 0%nat else 10%nat end.
Proof. destruct e; try reflexivity. destruct l; reflexivity. Qed.
Lemma firm_borrow_le k e : (k <= firmness e)%nat -> (k <= 10)%nat -> (k <= firmness (borrow e))%nat.
Proof. rewrite firm_borrow. destruct e; cbn [firmness range_first]; try lia; try (destruct (range_first e)); try (destruct l); lia. Qed.
Lemma g_borrow e : grammatical e -> grammatical (borrow e).
Proof.
  induction e using rexpr_ind'; intros G; cbn [borrow]; try (apply g_ref; [cbn; lia|exact G]).
  - destruct (range_first (RRef e)) eqn:R; [apply g_ref_range; assumption|]. apply g_ref; [|exact G]. cbn [firmness]. cbn [range_first] in R. rewrite R. lia.
  - inversion G as [| | | | | | | | | | | | | | | | | |? p ? ? HI HL HC HR GL GR| | | | | | |]; subst. pose proof (prec_range _ _ HI).
    eapply g_bin; [exact HI|apply firm_borrow_le; lia| |exact HR|apply IHe1, GL|exact GR]. intros Q. specialize (HC Q). apply (firm_borrow_le 4); lia.
  - destruct l as [l|]; [|apply g_ref_range; [reflexivity|exact G]].
    inversion G as [| | | | | | | | | | | | | | | | | | |? ? ? HI HO HL HR| | | | | |]; subst. apply g_range; auto.
    intros x [= <-]. destruct (HL l eq_refl) as [F1 G1]. split; [apply firm_borrow_le; lia|]. cbn in H. exact (H G1).
Qed.
Lemma g_ref_inv e : grammatical (RRef e) -> grammatical e.
Proof. intros G. inversion G; subst; assumption. Qed.
Lemma g_head e : grammatical e -> grammatical (head e).
Proof. induction e; intros G; try exact G. cbn [head]. apply IHe, g_ref_inv, G. Qed.
Lemma g_under F e : (forall o, o = head e -> (11 <= firmness o)%nat -> grammatical o -> grammatical (F o)) -> (forall o, (11 <= firmness (F o))%nat) ->
  (11 <= firmness (head e))%nat -> grammatical e -> grammatical (under F e) /\ (10 <= firmness (under F e))%nat.
Proof.
  intros HF HL. revert HF. assert (D : forall e', (forall o, o = e' -> (11 <= firmness o)%nat -> grammatical o -> grammatical (F o)) -> (11 <= firmness e')%nat -> grammatical e' ->
    grammatical (F e') /\ (10 <= firmness (F e'))%nat).
  { intros e' HF H1 H2. split; [apply HF; auto|]. specialize (HL e'). lia. }
  induction e; cbn [under head]; intros HF H G; try (apply D; assumption). destruct (IHe HF H (g_ref_inv _ G)) as [G1 G2]. split; [apply g_ref; assumption|]. cbn [firmness]. rewrite rf_firm by lia. lia.
Qed.
Lemma head_under F e : (forall o, head (F o) = F o) -> head (under F e) = F (head e).
Proof. intros HF. induction e; cbn [under head]; try apply HF. exact IHe. Qed.

(** What holds of the code of an expression that binds with strength [k]. *)
Definition reads_ok (k : nat) (r : rexpr) : Prop :=
  grammatical (reading r) /\ tidy r = true /\ (Nat.min k 10 <= firmness (reading r))%nat /\
  ((12 <= k)%nat -> (11 <= firmness (head (reading r)))%nat /\ is_field (head (reading r)) = is_field r).
Lemma reads_le k k' r : (k' <= k)%nat -> reads_ok k r -> reads_ok k' r.
Proof. intros L (G & T & F & H). repeat split; auto; [lia|apply H; lia|apply H; lia]. Qed.
Lemma reads_13 r : reads_ok 12 r -> reads_ok 13 r.
Proof. intros (G & T & F & H). repeat split; auto; apply H; lia. Qed.
(** Anything whose outermost form is a token or a bracket. *)
Lemma reads_atom k r : grammatical (reading r) -> tidy r = true -> firmness (reading r) = 11%nat -> (head (reading r) = reading r) -> is_field (reading r) = is_field r -> reads_ok k r.
Proof. intros G T F H I. repeat split; auto; [lia|rewrite H; lia|rewrite H; exact I]. Qed.
Lemma reads_of j r : (j <= 10)%nat -> (j <= firmness (reading r))%nat -> grammatical (reading r) -> tidy r = true -> reads_well (j, r).
Proof.
  intros L F G T. split; [exact L|]. exists (reading r). cbn [fst snd]. split; [|split; [apply spaced_reading|split; [apply unref_reading|intros w en st; apply ev_reading, T]]].
  rewrite <- toks_reading. apply reads_iff; [exact L|]. split; assumption.
Qed.
Lemma reads_well_of k j r : reads_ok k r -> (j <= Nat.min k 10)%nat -> reads_well (j, r).
Proof. intros (G & T & F & _) L. apply reads_of; [lia|lia|exact G|exact T]. Qed.
Lemma reads_well_ref k j r : reads_ok k r -> (j <= Nat.min k 10)%nat -> reads_well (j, RRef r).
Proof. intros (G & T & F & _) L. apply reads_of; [lia|cbn [reading]; apply firm_borrow_le; lia|cbn [reading]; apply g_borrow, G|exact T]. Qed.

(** ** Aliases *)
Definition scope_all (A : rexpr -> Prop) (s : lscope) : Prop := Forall (fun x => forall r, l_refs (snd x) = Some r -> A r) s.
Fixpoint chain_all (A : rexpr -> Prop) (m : chain) : Prop :=
  match m with Chain p ss => Forall (scope_all A) ss /\ match p with Some m' => chain_all A m' | None => True end end.
Section Chain.
  Variable A : rexpr -> Prop.
  Lemma scope_get k s v : scope_all A s -> lscope_get k s = Some v -> forall r, l_refs v = Some r -> A r.
  Proof. induction 1 as [|[k' v'] s H _ IH]; cbn [lscope_get]; [discriminate|]. destruct (str_eqb k k'); [intros [= <-]; exact H|exact IH]. Qed.
  Lemma lfind_all k ss v : Forall (scope_all A) ss -> lfind k ss = Some v -> forall r, l_refs v = Some r -> A r.
  Proof. induction 1 as [|s ss H _ IH]; cbn [lfind]; [discriminate|]. destruct (lscope_get k s) eqn:E; [intros [= <-]; eapply scope_get; eassumption|exact IH]. Qed.
  Lemma ch_get_all : forall m k v, chain_all A m -> ch_get m k = Some v -> forall r, l_refs v = Some r -> A r.
  Proof.
    fix IH 1. intros [p ss] k v [H1 H2]. cbn [ch_get]. destruct (lfind k ss) eqn:E; [intros [= <-]; eapply lfind_all; eassumption|].
    destruct p as [m'|]; [apply IH, H2|discriminate].
  Qed.
  Lemma ch_insert_all m k v m' : chain_all A m -> (forall r, l_refs v = Some r -> A r) -> ch_insert m k v = Ok m' -> chain_all A m'.
  Proof.
    destruct m as [p [|s ss]]; cbn [ch_insert]; intros [H1 H2] HV E; [discriminate E|]. injection E as <-. split; [|exact H2].
    inversion H1; subst. constructor; [|assumption]. constructor; assumption.
  Qed.
  Lemma ch_push_all m : chain_all A m -> chain_all A (ch_push m).
  Proof. destruct m as [p ss]. intros [H1 H2]. split; [constructor; [constructor|exact H1]|exact H2]. Qed.
  Lemma ch_pop_all m m' : chain_all A m -> ch_pop m = Ok m' -> chain_all A m'.
  Proof. destruct m as [p [|s [|s' ss]]]; intros [H1 H2] E; try discriminate E. injection E as <-. inversion H1; subst. split; assumption. Qed.
  Lemma ch_parent_all m : chain_all A m -> chain_all A (ch_with_parent m).
  Proof. intros H. split; [repeat constructor|exact H]. Qed.
  Lemma ch_empty_all : chain_all A ch_empty.
  Proof. split; [repeat constructor|exact I]. Qed.
  Lemma insert_all_all v : (forall r, l_refs v = Some r -> A r) -> forall ks m m', chain_all A m -> insert_all m v ks = Ok m' -> chain_all A m'.
  Proof.
    intros HV. induction ks as [|k ks IH]; intros m m' H E; cbn [insert_all] in E; [injection E as <-; exact H|].
    destruct (ch_insert m k v) as [m1| |] eqn:E1; try discriminate E. cbn in E. eapply IH; [|exact E]. eapply ch_insert_all; eassumption.
  Qed.
  Lemma visit_target_all m b t p m' : chain_all A m -> visit_target m b t = Ok (p, m') -> chain_all A m'.
  Proof.
    unfold visit_target. intros H E. destruct (insert_all m _ (target_names t)) as [m1| |] eqn:E1; try discriminate E. cbn in E. injection E as <- <-.
    eapply insert_all_all; [|exact H|exact E1]. destruct b; discriminate.
  Qed.
End Chain.

(** ** Expressions *)
Definition here (e : expr) : Prop :=
  operands_ok e /\
  match e with
  | BoolLit s | Var s => field_name s = true /\ first_digit s = false
  | NumLit s => hd_error s <> Some 45
  | BinOp op l _ => In (op, 3%nat) precedence -> (3 < binds l)%nat
  | Attr e a => field_name a = true /\ (first_digit a = true -> forall s, e <> NumLit s)
  | Range op _ r => op = lit "..=" -> r <> None
  | Filter _ (x :: _) => (10 <= binds x)%nat
  | NamedArgument _ _ => False
  | _ => True
  end.
Definition fitting (e : expr) : Prop := forall e', sub e' e -> here e'.
Lemma fitting_here e : fitting e -> here e.
Proof. intros H. apply H. constructor. Qed.
Lemma fitting_kid e k : fitting e -> In k (kids e) -> fitting k.
Proof. intros H K e' S. apply H. econstructor; eassumption. Qed.
Lemma fitting_kids e : fitting e -> Forall fitting (kids e).
Proof. intros H. apply Forall_forall. intros k. apply fitting_kid, H. Qed.
Lemma fitting_intro e : here e -> Forall fitting (kids e) -> fitting e.
Proof. intros H K e' S. inversion S; subst; [exact H|]. rewrite Forall_forall in K. eapply K; eassumption. Qed.

Lemma norm_plain s : field_name s = true -> field_name (normalize_identifier s) = true.
Proof.
  intros H. destruct (in_dec (list_eq_dec N.eq_dec) s rust_keywords) as [K|K]; [rewrite (normalize_keyword _ K); reflexivity|]. rewrite (normalize_other _ K). exact H.
Qed.
Lemma norm_first s : first_digit (normalize_identifier s) = true -> first_digit s = true.
Proof.
  destruct (in_dec (list_eq_dec N.eq_dec) s rust_keywords) as [K|K]; [rewrite (normalize_keyword _ K); discriminate|]. rewrite (normalize_other _ K). exact (fun H => H).
Qed.
Lemma name_not_sign s : field_name s = true -> hd_error s <> Some 45.
Proof. destruct s as [|c s]; [discriminate|]. cbn [field_name hd_error]. intros H [= ->]. discriminate H. Qed.
Lemma field_of e x : field_name x = true -> (first_digit x = true -> is_number e = false) -> field_ok e x = true.
Proof. unfold field_ok. intros -> H. destruct (first_digit x); [rewrite (H eq_refl)|]; reflexivity. Qed.
(** What an alias may be *)
Definition aliased (r : rexpr) : Prop := reads_ok 12 r /\ is_number (head (reading r)) = false.
Lemma reads_name s : reads_ok 13 (RName s).
Proof. apply reads_atom; try reflexivity. constructor. Qed.
Lemma reads_self x : field_name x = true -> reads_ok 13 (RField self x).
Proof. intros H. apply reads_atom; try reflexivity. apply g_field; [apply field_of; [exact H|reflexivity]|cbn; lia|constructor]. Qed.

Section Visit.
  Variables (inp : ginput) (m : chain).
  Hypothesis Hm : chain_all aliased m.
  Lemma resolve_reads s r : ch_resolve m s = Some r -> reads_ok 13 r.
  Proof.
    unfold ch_resolve. destruct (ch_get m (normalize_identifier s)) as [v|] eqn:E; [|discriminate]. intros [= <-].
    destruct (l_refs v) as [r|] eqn:R; [|apply reads_name]. apply reads_13. exact (proj1 (ch_get_all _ _ _ _ Hm E _ R)).
  Qed.
  Lemma resolve_name s r : ch_resolve m s = Some r -> is_number (head (reading r)) = false.
  Proof.
    unfold ch_resolve. destruct (ch_get m (normalize_identifier s)) as [v|] eqn:E; [|discriminate]. intros [= <-].
    destruct (l_refs v) as [r|] eqn:R; [|reflexivity]. exact (proj2 (ch_get_all _ _ _ _ Hm E _ R)).
  Qed.
  Lemma self_name s : is_number (head (reading (ch_resolve_or_self m s))) = false.
  Proof. unfold ch_resolve_or_self. destruct (ch_resolve m s) eqn:E; [exact (resolve_name _ _ E)|reflexivity]. Qed.
  Lemma var_name s : is_number (head (reading (visit_var m s))) = false.
  Proof.
    unfold visit_var. destruct (str_eqb s (lit "self")); [reflexivity|]. pose proof (self_name s) as R. destruct (ch_resolve_or_self m s); try exact R; reflexivity.
  Qed.
  Lemma self_reads s : field_name s = true -> reads_ok 13 (ch_resolve_or_self m s).
  Proof. intros H. unfold ch_resolve_or_self. destruct (ch_resolve m s) eqn:E; [exact (resolve_reads _ _ E)|]. apply reads_self, norm_plain, H. Qed.
  Lemma var_reads s : field_name s = true -> reads_ok 13 (visit_var m s).
  Proof.
    intros H. unfold visit_var. destruct (str_eqb s (lit "self")); [apply reads_name|]. pose proof (self_reads s H) as R.
    destruct (ch_resolve_or_self m s); try exact R. apply reads_name.
  Qed.
  Definition vok (e : expr) : Prop := fitting e -> forall r wr, visit_expr inp m e = Ok (r, wr) -> reads_ok (binds e) r.
  Lemma vok_sub e r : vok e -> fitting e -> v_sub inp m e = Ok r -> reads_ok (binds e) r.
  Proof. intros H F E. unfold v_sub in E. inv_ok E. eapply H; eassumption. Qed.
  Definition rok (r : rexpr) : Prop := grammatical (reading r) /\ tidy r = true.
  Lemma reads_rok k r : reads_ok k r -> rok r.
  Proof. intros (G & T & _). split; assumption. Qed.
  Lemma vok_subs l : Forall vok l -> Forall fitting l -> forall rs, v_subs inp m l = Ok rs -> Forall rok rs.
  Proof.
    induction 1 as [|e l He _ IH]; intros F rs E; cbn [v_subs] in E; inv_ok E; [constructor|]. inversion F; subst. constructor; [|apply IH; assumption].
    eapply reads_rok, vok_sub; eassumption.
  Qed.
  Definition aok (a : bool * bool * rexpr) : Prop := rok (snd a).
  Lemma vok_arg e a : vok e -> fitting e -> v_arg inp m e = Ok a -> aok a.
  Proof. intros H F E. unfold v_arg in E. inv_ok E. eapply reads_rok, vok_sub; eassumption. Qed.
  Lemma vok_args l : Forall vok l -> Forall fitting l -> forall rs, v_args inp m l = Ok rs -> Forall aok rs.
  Proof.
    induction 1 as [|e l He _ IH]; intros F rs E; cbn [v_args] in E; inv_ok E; [constructor|]. inversion F; subst. constructor; [|apply IH; assumption].
    eapply vok_arg; eassumption.
  Qed.
  Notation rarg := (fun a : bool * bool * rexpr => match a with (b, c, e) => (b, c, reading e) end).
  Lemma list_g rs : Forall rok rs -> Forall grammatical (map reading rs) /\ forallb tidy rs = true.
  Proof. induction 1 as [|r rs [G T] _ [IH1 IH2]]; cbn [map forallb]; [split; [constructor|reflexivity]|]. rewrite T, IH2. split; [constructor; assumption|reflexivity]. Qed.
  Lemma args_g l : Forall aok l -> Forall (fun a => grammatical (snd a)) (map rarg l) /\ forallb (fun a : bool * bool * rexpr => match a with (_, _, e) => tidy e end) l = true.
  Proof.
    induction 1 as [|[[b c] r] rs [G T] _ [IH1 IH2]]; cbn [map forallb]; [split; [constructor|reflexivity]|]. cbn [snd] in *. rewrite T, IH2. split; [constructor; assumption|reflexivity].
  Qed.
  Lemma rok_refs rs : Forall rok rs -> Forall rok (map RRef rs).
  Proof. induction 1 as [|r rs [G T] _ IH]; cbn [map]; constructor; [|exact IH]. split; [apply g_borrow, G|exact T]. Qed.
  (** A postfix operator applied to something that binds at least as strongly. *)
  Lemma reads_under F r : reads_ok 12 r -> (forall o, o = head (reading r) -> (11 <= firmness o)%nat -> grammatical o -> grammatical (F o)) -> (forall o, firmness (F o) = 11%nat) -> (forall o, head (F o) = F o) ->
    grammatical (under F (reading r)) /\ (10 <= firmness (under F (reading r)))%nat /\ head (under F (reading r)) = F (head (reading r)) /\ (11 <= firmness (head (under F (reading r))))%nat.
  Proof.
    intros (G & T & _ & H) HF HL HH. destruct (H (le_n _)) as [H1 _].
    destruct (g_under F (reading r) HF (fun o => Nat.eq_le_incl _ _ (eq_sym (HL o))) H1 G) as [G1 G2]. rewrite (head_under F _ HH). rewrite HL. auto.
  Qed.
  Lemma reads_call f l : reads_ok 12 f -> Forall aok l -> reads_ok 12 (RCall f l).
  Proof.
    intros Hf Hl. destruct (args_g l Hl) as [A1 A2].
    destruct (reads_under (fun o => RCall o (map rarg l)) f Hf) as (G1 & G2 & G3 & G4); try reflexivity.
    { intros o _ O1 O2. apply g_call; assumption. }
    destruct Hf as (G & T & _ & H). destruct (H (le_n _)) as [H1 H2].
    split; [exact G1|]. split; [cbn [tidy]; rewrite H2, eqb_reflx, T; exact A2|]. split; [exact G2|]. intros _. split; [exact G4|].
    change (reading (RCall f l)) with (under (fun o => RCall o (map rarg l)) (reading f)). rewrite G3. reflexivity.
  Qed.
  (** Where a field can follow, only numbers give numbers. *)
  Lemma visit_name e r wr : here e -> (12 <= binds e)%nat -> (forall s, e <> NumLit s) -> visit_expr inp m e = Ok (r, wr) -> is_number (head (reading r)) = false.
  Proof.
    intros [OP HE] B NN E. destruct e; try (exfalso; cbn [binds] in B; lia).
    - cbn [visit_expr] in E. inv_ok E. exact (proj2 HE).
    - now elim (NN s).
    - cbn [visit_expr] in E. inv_ok E. reflexivity.
    - cbn [visit_expr] in E. inv_ok E. reflexivity.
    - cbn [visit_expr] in E. inv_ok E. apply var_name.
    - cbn [visit_expr] in E. inv_ok E. reflexivity.
    - rewrite visit_arr in E. inv_ok E. reflexivity.
    - cbn [visit_expr] in E. destruct (var_loop e).
      + change (v_plain (loop_attr name) = Ok (r, wr)) in E. inv_ok E. unfold loop_attr in E.
        repeat match type of E with (if ?b then _ else _) = _ => destruct b end; inv_ok E; try discriminate E; reflexivity.
      + change (v_plain (let! r := v_sub inp m e in Ok (RField r (normalize_identifier name))) = Ok (r, wr)) in E. inv_ok E. cbn [reading]. rewrite head_field. reflexivity.
    - change (v_plain (let! r := v_sub inp m e1 in let! k := v_sub inp m e2 in Ok (RRef (RIndex r k))) = Ok (r, wr)) in E. inv_ok E. cbn [reading].
      assert (K : borrow (under (fun o => RIndex o (reading a0)) (reading a)) = RRef (under (fun o => RIndex o (reading a0)) (reading a))) by (destruct (reading a); reflexivity).
      rewrite K. cbn [head]. rewrite head_under by reflexivity. reflexivity.
    - destruct OP as (p & PI & _). apply prec_range in PI as PR. cbn [binds] in B. rewrite (prec_eq _ _ PI) in B. exfalso. lia.
    - change (v_plain (let! r := v_sub inp m e in Ok (RGrp r)) = Ok (r, wr)) in E. inv_ok E. reflexivity.
    - rewrite visit_tuple in E. inv_ok E. reflexivity.
    - assert (D : forall f l, is_number (head (reading (RCall f l))) = false) by (intros f l; cbn [reading]; rewrite head_under by reflexivity; reflexivity).
      assert (D' : v_plain (let! r := v_sub inp m e in let! rs := v_args inp m args in Ok (RCall r rs)) = Ok (r, wr) -> is_number (head (reading r)) = false).
      { intros E1. inv_ok E1. apply D. }
      rewrite visit_call in E. destruct e; try (apply D'; exact E).
      + cbv zeta in E. inv_ok E. apply D.
      + destruct e; try (apply D'; exact E). destruct (str_eqb s (lit "loop")); [|apply D'; exact E]. destruct (str_eqb name (lit "cycle")); [|discriminate E].
        destruct args as [|x [|]]; try discriminate E; [|destruct x as [| | | | | |[|]| | | | | | | | | | | | |]; discriminate E].
        destruct x as [| | | | | |[|]| | | | | | | | | | | | |]; try discriminate E; inv_ok E; reflexivity.
    - cbn [visit_expr] in E. inv_ok E. reflexivity.
    - change (v_plain (let! r := v_sub inp m e in Ok (RTry r)) = Ok (r, wr)) in E. inv_ok E. reflexivity.
    - cbn [visit_expr] in E. inv_ok E. reflexivity.
  Qed.
  Lemma visit_reads e : vok e.
  Proof.
    induction e using expr_ind'; unfold vok; intros F r0 wr E; pose proof (fitting_here _ F) as [OP HE]; pose proof (fitting_kids _ F) as FK; cbn [kids] in FK.
    - cbn [visit_expr] in E. inv_ok E. apply reads_atom; try reflexivity. constructor. exact (name_not_sign _ (proj1 HE)).
    - cbn [visit_expr] in E. inv_ok E. apply reads_atom; try reflexivity. constructor. exact HE.
    - cbn [visit_expr] in E. inv_ok E. apply reads_atom; try reflexivity. constructor.
    - cbn [visit_expr] in E. inv_ok E. apply reads_atom; try reflexivity. constructor.
    - cbn [visit_expr] in E. inv_ok E. apply var_reads, HE.
    - cbn [visit_expr] in E. inv_ok E. apply reads_atom; try reflexivity. constructor.
    - rewrite visit_arr in E. inv_ok E. destruct (list_g _ (vok_subs _ H FK _ E0)) as [G T]. apply reads_atom; try reflexivity; [constructor; exact G|exact T].
    - cbn [visit_expr] in E. destruct (var_loop e).
      + change (v_plain (loop_attr x) = Ok (r0, wr)) in E. inv_ok E. unfold loop_attr in E.
        repeat match type of E with (if ?b then _ else _) = _ => destruct b end; inv_ok E; try discriminate E; try (apply (reads_le 13); [cbn; lia|]; apply reads_atom; try reflexivity).
        * constructor. apply (g_bin _ 8); [cbn; tauto|cbn; lia|discriminate|cbn; lia|apply g_field; [reflexivity|cbn; lia|constructor]|constructor; discriminate].
        * constructor; [reflexivity|cbn; lia|constructor].
        * constructor; [reflexivity|cbn; lia|constructor].
        * constructor; [reflexivity|cbn; lia|constructor].
      + change (v_plain (let! r := v_sub inp m e in Ok (RField r (normalize_identifier x))) = Ok (r0, wr)) in E. inv_ok E. inversion FK; subst.
        pose proof (reads_le _ 12 _ OP (vok_sub _ _ IHe H1 E0)) as R.
        destruct (reads_under (fun o => RField o (normalize_identifier x)) a R) as (G1 & G2 & G3 & G4); try reflexivity.
        { intros o O0 O1 O2. apply g_field; auto. destruct HE as [HE1 HE2]. apply field_of; [apply norm_plain, HE1|]. intros Q. apply norm_first in Q. subst o.
          match goal with V : v_sub inp m e = Ok a |- _ => unfold v_sub in V; inv_ok V end. eapply (visit_name e); [apply fitting_here; assumption|exact OP|exact (HE2 Q)|eassumption]. }
        split; [exact G1|]. split; [exact (proj1 (proj2 R))|]. split; [exact G2|]. intros _. split; [exact G4|].
        change (reading (RField a (normalize_identifier x))) with (under (fun o => RField o (normalize_identifier x)) (reading a)). rewrite G3. reflexivity.
    - change (v_plain (let! r := v_sub inp m e1 in let! k := v_sub inp m e2 in Ok (RRef (RIndex r k))) = Ok (r0, wr)) in E. inv_ok E.
      inversion FK as [|? ? K1 K]; subst. inversion K as [|? ? K2 _]; subst.
      pose proof (reads_le _ 12 _ OP (vok_sub _ _ IHe1 K1 E0)) as R. pose proof (reads_rok _ _ (vok_sub _ _ IHe2 K2 E1)) as [R1 R2].
      destruct (reads_under (fun o => RIndex o (reading a0)) a R) as (G1 & G2 & G3 & G4); try reflexivity.
      { intros o _ O1 O2. apply g_index; auto. }
      assert (B : borrow (under (fun o => RIndex o (reading a0)) (reading a)) = RRef (under (fun o => RIndex o (reading a0)) (reading a))) by (destruct (reading a); reflexivity).
      split; [cbn [reading]; apply g_borrow, G1|]. split; [cbn [tidy]; rewrite (proj1 (proj2 R)); exact R2|]. split; [cbn [reading]; rewrite B; cbn [firmness]; rewrite (rf_firm _ (PeanoNat.Nat.le_trans 1 10 _ ltac:(lia) G2)); lia|].
      intros _. cbn [reading]. rewrite B. cbn [head]. rewrite G3. split; [cbn; lia|reflexivity].
    - pose proof (vok_args l H FK) as QA. pose proof (vok_subs l H FK) as QS. cbn [binds].
      assert (HD : forall a, In a l -> forall x, v_arg inp m a = Ok x -> aok x).
      { intros a Ha x Hx. rewrite Forall_forall in *. eapply vok_arg; eauto. }
      assert (HS : forall a, l = [a] -> forall x, v_sub inp m a = Ok x -> rok x /\ (10 <= firmness (reading x))%nat).
      { intros a -> x Hx. inversion H; subst. inversion FK; subst. pose proof (vok_sub _ _ H2 H4 Hx) as R. split; [eapply reads_rok; exact R|].
        destruct R as (_ & _ & R & _). cbn in HE. lia. }
      rewrite visit_filter in E.
      destruct (str_eqb n (lit "as_ref")).
      { destruct l as [|a [|]]; try discriminate E. inv_ok E. destruct (HS a eq_refl _ E0) as [[G T] L]. split; [apply g_borrow, G|]. split; [exact T|]. split; [cbn [reading]; apply firm_borrow_le; cbn; lia|lia]. }
      destruct (str_eqb n (lit "deref")).
      { destruct l as [|a [|]]; try discriminate E. inv_ok E. destruct (HS a eq_refl _ E0) as [[G T] L]. split; [cbn [reading]; apply g_deref; assumption|]. split; [exact T|]. split; [cbn; lia|lia]. }
      destruct (str_eqb n (lit "escape") || str_eqb n (lit "e")).
      { assert (K : forall esc a x, In a l -> v_arg inp m a = Ok x -> reads_ok 10 (REscape esc x)).
        { intros esc a [[b c] x] Ha Hx. destruct (HD a Ha _ Hx) as [G T]. apply reads_atom; try reflexivity; [constructor; exact G|exact T]. }
        destruct l as [|a [|b [|c l]]]; try discriminate E; [|destruct b; try discriminate E|destruct b; discriminate E]; inv_ok E; eapply (K _ a); try eassumption; left; reflexivity. }
      destruct (str_eqb n (lit "fmt")).
      { destruct l as [|a [|b [|c l]]]; try discriminate E; destruct b; try discriminate E. inv_ok E. pose proof (HD a (or_introl eq_refl) _ E0) as Q.
        destruct (args_g [a0] (Forall_cons _ Q (Forall_nil _))) as [G T]. apply reads_atom; try reflexivity; [constructor; exact G|exact T]. }
      destruct (str_eqb n (lit "format")).
      { destruct l as [|a l]; try discriminate E; destruct a; try discriminate E. inv_ok E. inversion H; subst. inversion FK; subst.
        destruct (args_g _ (vok_args l H3 H5 _ E0)) as [G T]. apply reads_atom; try reflexivity; [constructor; exact G|exact T]. }
      destruct (str_eqb n (lit "join")).
      { inv_ok E. destruct (list_g _ (rok_refs _ (QS _ E0))) as [G T]. apply reads_atom; try reflexivity; [constructor; exact G|exact T]. }
      destruct (str_eqb n (lit "json") || str_eqb n (lit "tojson")).
      { destruct (negb _); [discriminate E|]; destruct l as [|a [|]]; try discriminate E; inv_ok E. pose proof (HD a (or_introl eq_refl) _ E0) as Q.
        destruct (args_g [a0] (Forall_cons _ Q (Forall_nil _))) as [G T]. apply reads_atom; try reflexivity; [constructor; exact G|exact T]. }
      destruct (str_eqb n (lit "safe")).
      { destruct l as [|a [|]]; try discriminate E; inv_ok E. pose proof (HD a (or_introl eq_refl) _ E0) as [G T]. destruct a0 as [[b c] x].
        apply reads_atom; try reflexivity; [constructor; exact G|exact T]. }
      inv_ok E. destruct (args_g _ (QA _ E0)) as [G T]. apply reads_atom; try reflexivity; [constructor; exact G|exact T].
    - contradiction.
    - change (v_plain (let! r := v_sub inp m e in Ok (RUn o r)) = Ok (r0, wr)) in E. inv_ok E. inversion FK; subst. destruct OP as [O1 O2].
      destruct (reads_le _ 11 _ O2 (vok_sub _ _ IHe H1 E0)) as (G & T & L & _). split; [cbn [reading]; apply g_un; [exact O1|cbn in L; lia|exact G]|]. split; [exact T|]. split; [cbn; lia|cbn; lia].
    - change (v_plain (let! a := v_sub inp m e1 in let! b := v_sub inp m e2 in Ok (RBin o a b)) = Ok (r0, wr)) in E. inv_ok E.
      inversion FK as [|? ? K1 K]; subst. inversion K as [|? ? K2 _]; subst. destruct OP as (p & PI & PL & PR). pose proof (prec_range _ _ PI) as RP.
      pose proof (vok_sub _ _ IHe1 K1 E0) as (G1 & T1 & L1 & _). pose proof (vok_sub _ _ IHe2 K2 E1) as (G2 & T2 & L2 & _).
      split; [cbn [reading]; eapply g_bin; [exact PI|lia| |lia|exact G1|exact G2]|].
      { intros ->. specialize (HE PI). lia. }
      split; [cbn [tidy]; rewrite T1; exact T2|]. cbn [reading firmness binds]. rewrite (prec_eq _ _ PI). split; [lia|lia].
    - change (v_plain (let! a := v_opt inp m l in let! b := v_opt inp m r in Ok (RRange o a b)) = Ok (r0, wr)) in E. inv_ok E.
      destruct OP as (O1 & O2 & O3). rewrite Forall_app in FK. destruct FK as [FL FR].
      assert (KL : forall x, l = Some x -> exists y, a = Some y /\ reads_ok 1 y).
      { intros x ->. inversion FL; subst. unfold v_opt in E0. inv_ok E0. eexists. split; [reflexivity|]. eapply reads_le; [exact (O2 x eq_refl)|]. eapply vok_sub; eassumption. }
      assert (KR : forall x, r = Some x -> exists y, a0 = Some y /\ reads_ok 1 y).
      { intros x ->. inversion FR; subst. unfold v_opt in E1. inv_ok E1. eexists. split; [reflexivity|]. eapply reads_le; [exact (O3 x eq_refl)|]. eapply vok_sub; eassumption. }
      assert (NL : l = None -> a = None) by (intros ->; unfold v_opt in E0; inv_ok E0; reflexivity).
      assert (NR : r = None -> a0 = None) by (intros ->; unfold v_opt in E1; inv_ok E1; reflexivity).
      assert (SL : forall y, a = Some y -> reads_ok 1 y).
      { intros y ->. destruct l as [x|]; [|discriminate (NL eq_refl)]. destruct (KL x eq_refl) as (y' & [= <-] & R). exact R. }
      assert (SR : forall y, a0 = Some y -> reads_ok 1 y).
      { intros y ->. destruct r as [x|]; [|discriminate (NR eq_refl)]. destruct (KR x eq_refl) as (y' & [= <-] & R). exact R. }
      split; [cbn [reading]; apply g_range; [exact O1| | |]|].
      { intros Q. specialize (HE Q). destruct r as [x|]; [|congruence]. destruct (KR x eq_refl) as (y & -> & _). discriminate. }
      { intros e Q. destruct a as [y|]; [|discriminate Q]. injection Q as <-. destruct (SL y eq_refl) as (G & _ & L & _). split; [cbn in L; lia|exact G]. }
      { intros e Q. destruct a0 as [y|]; [|discriminate Q]. injection Q as <-. destruct (SR y eq_refl) as (G & _ & L & _). split; [cbn in L; lia|exact G]. }
      split; [|cbn; lia]. cbn [tidy]. apply andb_true_intro. split.
      { destruct a as [y|]; [|reflexivity]. exact (proj1 (proj2 (SL y eq_refl))). }
      { destruct a0 as [y|]; [|reflexivity]. exact (proj1 (proj2 (SR y eq_refl))). }
    - change (v_plain (let! r := v_sub inp m e in Ok (RGrp r)) = Ok (r0, wr)) in E. inv_ok E. inversion FK; subst.
      destruct (reads_rok _ _ (vok_sub _ _ IHe H1 E0)) as [G T]. apply reads_atom; try reflexivity; [constructor; exact G|exact T].
    - rewrite visit_tuple in E. inv_ok E. destruct (list_g _ (vok_subs _ H FK _ E0)) as [G T]. apply reads_atom; try reflexivity; [constructor; exact G|exact T].
    - inversion FK as [|? ? K1 K2]; subst. pose proof (vok_args l H K2) as QA. cbn [binds].
      assert (D : v_plain (let! r := v_sub inp m e in let! rs := v_args inp m l in Ok (RCall r rs)) = Ok (r0, wr) -> reads_ok 12 r0).
      { intros E1. inv_ok E1. apply reads_call; [|exact (QA _ E2)]. eapply reads_le; [exact OP|]. eapply vok_sub; eassumption. }
      rewrite visit_call in E. destruct e; try (apply D; exact E).
      + cbv zeta in E. inv_ok E. apply reads_call; [|exact (QA _ E0)]. destruct (ch_resolve m s) as [c|] eqn:C; [eapply reads_le; [|exact (resolve_reads _ _ C)]; lia|].
        apply reads_atom; try reflexivity. cbn [reading under self borrow]. constructor. apply g_ref; [cbn; lia|]. apply g_field; [|cbn; lia|constructor].
        apply field_of; [|reflexivity]. apply norm_plain. exact (proj1 (proj2 (fitting_here _ K1))).
      + destruct e; try (apply D; exact E). destruct (str_eqb s (lit "loop")); [|apply D; exact E].
        destruct (str_eqb name (lit "cycle")); [|discriminate E].
        assert (C : forall x, l = [x] -> v_plain (let! r := v_sub inp m x in Ok (RCycle r)) = Ok (r0, wr) -> reads_ok 12 r0).
        { intros x -> Ex. inv_ok Ex. inversion H; subst. inversion K2; subst. match goal with V : v_sub inp m x = Ok _ |- _ => destruct (reads_rok _ _ (vok_sub _ _ H2 H4 V)) as [G T] end.
          apply reads_atom; try reflexivity; [constructor; exact G|exact T]. }
        destruct l as [|x [|]]; try discriminate E; [|destruct x as [| | | | | |[|]| | | | | | | | | | | | |]; discriminate E].
        destruct x as [| | | | | |[|]| | | | | | | | | | | | |]; try discriminate E; apply (C _ eq_refl E).
    - cbn [visit_expr] in E. inv_ok E. apply reads_atom; try reflexivity. constructor.
    - change (v_plain (let! r := v_sub inp m e in Ok (RTry r)) = Ok (r0, wr)) in E. inv_ok E. inversion FK; subst.
      destruct (reads_rok _ _ (vok_sub _ _ IHe H1 E0)) as [G T]. apply reads_atom; try reflexivity; [constructor; exact G|exact T].
    - cbn [visit_expr] in E. inv_ok E. apply reads_name.
  Qed.
End Visit.
