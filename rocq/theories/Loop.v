(** * Model of askama/src/helpers.rs: the iterator adapter behind [loop.*]. *)
From Verif Require Import Base.

Section Iter.
  (** An iterator is any state machine; it may even yield again after it returned [None] (not fused). *)
  Variables (St A : Type) (next : St -> option A * St).

  (** [std::iter::Enumerate] (trusted std): the counter only moves when an item is delivered. [usize] overflow of the
      counter (2^64 items) is not modelled. *)
  Record enumerate := { e_iter : St; e_count : nat }.
  Definition enum_next (e : enumerate) : option (nat * A) * enumerate :=
    match next (e_iter e) with
    | (Some a, s) => (Some (e_count e, a), {| e_iter := s; e_count := S (e_count e) |})
    | (None, s) => (None, {| e_iter := s; e_count := e_count e |})
    end.

  (** [std::iter::Peekable] (trusted std): [next] takes a peeked value if there is one, [peek] fills it in. *)
  Record peekable := { p_iter : enumerate; p_peeked : option (option (nat * A)) }.
  Definition peek_next (p : peekable) : option (nat * A) * peekable :=
    match p_peeked p with
    | Some v => (v, {| p_iter := p_iter p; p_peeked := None |})
    | None => let (v, e) := enum_next (p_iter p) in (v, {| p_iter := e; p_peeked := None |})
    end.
  Definition peek (p : peekable) : option (nat * A) * peekable :=
    match p_peeked p with
    | Some v => (v, p)
    | None => let (v, e) := enum_next (p_iter p) in (v, {| p_iter := e; p_peeked := Some v |})
    end.

  (** helpers.rs:43-48 *)
  Record loop_item := { index : nat; first : bool; last : bool }.

  (** helpers.rs:3-20: [TemplateLoop::new]. *)
  Definition template_loop := peekable.
  Definition tl_new (s : St) : template_loop := {| p_iter := {| e_iter := s; e_count := 0 |}; p_peeked := None |}.

  (** helpers.rs:29-40: [TemplateLoop::next]. *)
  Definition tl_next (t : template_loop) : option (A * loop_item) * template_loop :=
    match peek_next t with
    | (None, t) => (None, t)
    | (Some (i, item), t) =>
        let (pk, t) := peek t in
        (Some (item, {| index := i; first := Nat.eqb i 0; last := match pk with None => true | Some _ => false end |}), t)
    end.

  (** generator.rs:1464-1482: the four attributes of [loop]. *)
  Inductive loop_val := VNum (n : nat) | VBool (b : bool).
  Definition loop_attr (attr : str) (l : loop_item) : option loop_val :=
    if str_eqb attr (lit "index") then Some (VNum (index l + 1))
    else if str_eqb attr (lit "index0") then Some (VNum (index l))
    else if str_eqb attr (lit "first") then Some (VBool (first l))
    else if str_eqb attr (lit "last") then Some (VBool (last l))
    else None.

  (** ** Specification *)
  (** The result of the [k]-th call of [next] on the bare iterator, provided all earlier ones delivered an item. *)
  Fixpoint item_at (s : St) (k : nat) : option A :=
    match next s with
    | (None, _) => None
    | (Some a, s') => match k with O => Some a | S k' => item_at s' k' end
    end.
  (** The result of the [k]-th call of [next] on the loop (a [for] stops at the first [None]). *)
  Fixpoint loop_at (t : template_loop) (k : nat) : option (A * loop_item) :=
    match tl_next t with
    | (None, _) => None
    | (Some x, t') => match k with O => Some x | S k' => loop_at t' k' end
    end.
  (** All items, when there are finitely many: [for] with at most [fuel] iterations. *)
  Fixpoint run_loop (fuel : nat) (t : template_loop) : option (list (A * loop_item)) :=
    match fuel with
    | O => None
    | S f => match tl_next t with
             | (None, _) => Some []
             | (Some x, t') => option_map (cons x) (run_loop f t')
             end
    end.
  Inductive yields : St -> list A -> Prop :=
  | y_end s s' : next s = (None, s') -> yields s []
  | y_item s s' a l : next s = (Some a, s') -> yields s' l -> yields s (a :: l).
  Fixpoint annotate (i : nat) (l : list A) : list (A * loop_item) :=
    match l with
    | [] => []
    | a :: l' => (a, {| index := i; first := Nat.eqb i 0; last := match l' with [] => true | _ => false end |})
                   :: annotate (S i) l'
    end.

  (** ** Proofs *)
  (** A loop state in the middle of a run: position [i], remaining bare iterator [s]. *)
  Inductive at_pos : nat -> St -> template_loop -> Prop :=
  | ap_fresh i s : at_pos i s {| p_iter := {| e_iter := s; e_count := i |}; p_peeked := None |}
  | ap_item i s a s' : next s = (Some a, s') ->
      at_pos i s {| p_iter := {| e_iter := s'; e_count := S i |}; p_peeked := Some (Some (i, a)) |}
  | ap_end i s s' : next s = (None, s') ->
      at_pos i s {| p_iter := {| e_iter := s'; e_count := i |}; p_peeked := Some None |}.

  Lemma tl_step i s t : at_pos i s t ->
    match next s with
    | (None, _) => fst (tl_next t) = None
    | (Some a, s') =>
        fst (tl_next t) = Some (a, {| index := i; first := Nat.eqb i 0;
                                      last := match next s' with (None, _) => true | _ => false end |})
        /\ at_pos (S i) s' (snd (tl_next t))
    end.
  Proof.
    intros H. destruct H as [i s|i s a s' Hn|i s s' Hn]; unfold tl_next, peek_next, peek, enum_next; cbn.
    - destruct (next s) as [[a|] s'] eqn:E; cbn; [|reflexivity]. destruct (next s') as [[b|] s''] eqn:E'; cbn; split; try reflexivity; constructor; exact E'.
    - rewrite Hn. cbn.
      destruct (next s') as [[b|] s''] eqn:E'; cbn; split; try reflexivity; constructor; exact E'.
    - rewrite Hn. reflexivity.
  Qed.

  Lemma loop_at_gen k : forall i s t, at_pos i s t ->
    loop_at t k = match item_at s k with
                  | None => None
                  | Some a => Some (a, {| index := i + k; first := Nat.eqb (i + k) 0;
                                          last := match item_at s (S k) with None => true | Some _ => false end |})
                  end.
  Proof.
    induction k as [|k IH]; intros i s t H; pose proof (tl_step i s t H) as Hs;
      cbn [loop_at item_at]; destruct (next s) as [[a|] s'] eqn:E.
    - destruct Hs as [H1 H2]. destruct (tl_next t) as [r t']. cbn in H1, H2. subst r. rewrite Nat.add_0_r.
      cbn [item_at]. destruct (next s') as [[b|] s'']; reflexivity.
    - destruct (tl_next t) as [r t']. cbn in Hs. subst r. reflexivity.
    - destruct Hs as [H1 H2]. destruct (tl_next t) as [r t']. cbn in H1, H2. subst r.
      rewrite (IH _ _ _ H2). destruct (item_at s' k); [|reflexivity].
      replace (S i + k) with (i + S k) by lia. reflexivity.
    - destruct (tl_next t) as [r t']. cbn in Hs. subst r. reflexivity.
  Qed.

  Lemma loop_at_correct s k :
    loop_at (tl_new s) k = match item_at s k with
                           | None => None
                           | Some a => Some (a, {| index := k; first := Nat.eqb k 0;
                                                   last := match item_at s (S k) with None => true | Some _ => false end |})
                           end.
  Proof. apply (loop_at_gen k 0 s). constructor. Qed.

  Lemma run_loop_gen l : forall i s t, yields s l -> at_pos i s t -> run_loop (S (length l)) t = Some (annotate i l).
  Proof.
    induction l as [|a l IH]; intros i s t Hy Hp; pose proof (tl_step i s t Hp) as Hs.
    - inversion Hy; subst. rewrite H in Hs. cbn [run_loop]. destruct (tl_next t) as [r t']. cbn in Hs. subst r. reflexivity.
    - inversion Hy as [|? s' ? ? Hn Hl]; subst. rewrite Hn in Hs. destruct Hs as [Ha Hb]. cbn [length].
      change (run_loop (S (S (length l))) t) with
        (match tl_next t with (None, _) => Some [] | (Some x, t') => option_map (cons x) (run_loop (S (length l)) t') end).
      destruct (tl_next t) as [r t']. cbn [fst snd] in Ha, Hb. subst r. rewrite (IH (S i) _ _ Hl Hb). cbn [option_map annotate].
      inversion Hl; subst; match goal with E : next s' = _ |- _ => rewrite E end; reflexivity.
  Qed.

  Lemma run_loop_correct s l : yields s l -> run_loop (S (length l)) (tl_new s) = Some (annotate 0 l).
  Proof. intros H. apply (run_loop_gen l 0 s); [exact H|constructor]. Qed.
End Iter.
