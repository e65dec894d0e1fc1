From Verif Require Import Base Api.
Local Open Scope N_scope.

(** What the template writes when nothing fails, and how it ends. *)
Fixpoint full_text (p : render_prog) : str := match p with Ret _ => [] | Write s k => s ++ full_text (k true) end.
Fixpoint outcome (p : render_prog) : option error := match p with Ret r => r | Write _ k => outcome (k true) end.
(** Generated code passes on writer errors with [?]: after a failed write it returns an error at once. *)
Inductive propagates : render_prog -> Prop :=
| p_ret r : propagates (Ret r)
| p_write s k : k false = Ret (Some EFmt) -> propagates (k true) -> propagates (Write s k).

Lemma string_render p : forall s, render_into string_writer p s = (s ++ full_text p, outcome p).
Proof.
  induction p as [r|t k IH]; intros s; cbn; [rewrite app_nil_r; reflexivity|]. rewrite IH, app_assoc. reflexivity.
Qed.
Lemma render_spec h p : render h p = match outcome p with None => inl (full_text p) | Some e => inr e end.
Proof. unfold render. rewrite string_render. destruct (outcome p); reflexivity. Qed.
Lemma to_string_spec p : to_string p = match outcome p with None => Ok (full_text p) | Some _ => Panic end.
Proof. unfold to_string, display. rewrite string_render. destruct (outcome p); reflexivity. Qed.

(** A writer of which we can see the text received: it may refuse a piece after having taken a part of it. *)
Definition observes (w : writer) (seen : w_state w -> str) : Prop :=
  forall s t, match w_write w s t with
              | (s', true) => seen s' = seen s ++ t
              | (s', false) => exists a b, t = a ++ b /\ seen s' = seen s ++ a
              end.
Lemma render_into_prefix w seen : observes w seen -> forall p, propagates p -> forall s s' r, render_into w p s = (s', r) ->
  (seen s' = seen s ++ full_text p /\ r = outcome p) \/
  (exists a b, full_text p = a ++ b /\ seen s' = seen s ++ a /\ r = Some EFmt).
Proof.
  intros Hw p Hp. induction Hp as [r0|t k Hf Ht IH]; intros s s' r H.
  - cbn in H. injection H as <- <-. left. cbn. rewrite app_nil_r. auto.
  - cbn in H. pose proof (Hw s t) as Ho. destruct (w_write w s t) as [s1 [|]].
    + apply IH in H. cbn. rewrite Ho in H. destruct H as [[H1 H2]|(a & b & H1 & H2 & H3)].
      * left. rewrite H1, app_assoc. auto.
      * right. exists (t ++ a), b. rewrite H1, H2, !app_assoc. auto.
    + rewrite Hf in H. cbn in H. injection H as <- <-. right. destruct Ho as (a & b & -> & Ho).
      exists a, (b ++ full_text (k true)). cbn. rewrite app_assoc. auto.
Qed.

Definition io_observes (w : io_writer) (seen : io_state w -> str) : Prop :=
  forall s t, match io_write_all w s t with
              | (s', None) => seen s' = seen s ++ t
              | (s', Some _) => exists a b, t = a ++ b /\ seen s' = seen s ++ a
              end.
Lemma adapter_observes w seen : io_observes w seen -> observes (adapter w) (fun st => seen (fst st)).
Proof.
  intros H [s e] t. cbn. specialize (H s t). destruct (io_write_all w s t) as [s' [m|]]; cbn; exact H.
Qed.
(** The adapter has an error stored exactly if a write failed. *)
Lemma adapter_error w : forall p, propagates p -> forall s st r, render_into (adapter w) p (s, None) = (st, r) ->
  (snd st = None -> r = outcome p) /\ (forall m, snd st = Some m -> r = Some EFmt).
Proof.
  intros p Hp. induction Hp as [r0|t k Hf Ht IH]; intros s st r H.
  - cbn in H. injection H as <- <-. cbn. split; [reflexivity|discriminate].
  - cbn in H. destruct (io_write_all w s t) as [s' [m|]]; cbn in H.
    + rewrite Hf in H. cbn in H. injection H as <- <-. cbn. split; [discriminate|auto].
    + apply IH in H. exact H.
Qed.
Lemma write_into_spec panics w seen : io_observes w seen -> forall p, propagates p -> forall s s' r, write_into panics w p s = (s', r) ->
  exists a b, full_text p = a ++ b /\ seen s' = seen s ++ a /\
    (r = Ok tt -> b = [] /\ outcome p = None) /\ (outcome p = None -> r <> Panic).
Proof.
  intros Hw p Hp s s' r H. unfold write_into, write_fmt, display in H.
  destruct (render_into (adapter w) p (s, None)) as [[s1 e1] r1] eqn:E.
  pose proof (adapter_error w p Hp _ _ _ E) as [Hn Hs]. cbn in Hn, Hs.
  pose proof (render_into_prefix _ _ (adapter_observes w seen Hw) p Hp _ _ _ E) as Ho. cbn in Ho.
  assert (A : exists a b, full_text p = a ++ b /\ seen s1 = seen s ++ a /\ (r1 = None -> b = [])).
  { destruct Ho as [[H1 H2]|(a & b & H1 & H2 & ->)].
    - exists (full_text p), []. rewrite app_nil_r. auto.
    - exists a, b. split; [exact H1|]. split; [exact H2|discriminate]. }
  destruct A as (a & b & A1 & A2 & A3). exists a, b.
  destruct r1 as [e|].
  - destruct e1 as [m|].
    + injection H as <- <-. repeat split; auto; try discriminate.
    + injection H as <- <-. rewrite <- (Hn eq_refl). destruct panics; repeat split; auto; try discriminate.
  - destruct e1 as [m|]; [specialize (Hs m eq_refl); discriminate|].
    injection H as <- <-. repeat split; auto; try discriminate. rewrite <- Hn; reflexivity.
Qed.
(** With a writer that never fails. *)
Lemma write_into_ok panics w seen : io_observes w seen -> (forall s t, snd (io_write_all w s t) = None) ->
  forall p s s' r, write_into panics w p s = (s', r) ->
  seen s' = seen s ++ full_text p /\ (r = Ok tt <-> outcome p = None).
Proof.
  intros Hw Hok p s s' r H. unfold write_into, write_fmt, display in H.
  assert (A : forall p s, exists s1, render_into (adapter w) p (s, None) = ((s1, None), outcome p) /\ seen s1 = seen s ++ full_text p).
  { clear - Hw Hok. induction p as [r0|t k IH]; intros s.
    - exists s. cbn. rewrite app_nil_r. auto.
    - cbn. pose proof (Hw s t) as Ho. pose proof (Hok s t) as Hk. destruct (io_write_all w s t) as [s2 e2]. cbn in Hk. subst e2. cbn.
      destruct (IH true s2) as (s1 & H1 & H2). exists s1. rewrite H1. split; [reflexivity|]. rewrite H2, Ho, app_assoc. reflexivity. }
  destruct (A p s) as (s1 & E1 & E2). rewrite E1 in H. destruct (outcome p).
  - injection H as <- <-. split; [exact E2|]. destruct panics; split; discriminate.
  - injection H as <- <-. split; [exact E2|]. tauto.
Qed.

Lemma web_error mime h p e : outcome p = Some e ->
  status (warp_into_response mime (render h p)) = 500 /\ body (warp_into_response mime (render h p)) = err_text e /\
  status (rocket_into_response mime (render h p)) = 500 /\ rocket_respond mime (render h p) = inr 500 /\
  status (actix_into_response mime (render h p)) = 500 /\ body (actix_into_response mime (render h p)) = err_text e /\
  body (axum_into_response mime (render h p)) = err_text e.
Proof. intros H. rewrite render_spec, H. cbn. repeat split. Qed.
Lemma web_success mime h p : outcome p = None ->
  let r := render h p in let good x := status x = 200 /\ content_type x = mime /\ body x = full_text p in
  good (warp_into_response mime r) /\ good (rocket_into_response mime r) /\ good (actix_into_response mime r) /\
  good (axum_into_response mime r) /\ (exists x, rocket_respond mime r = inl x /\ good x).
Proof. intros H. cbv zeta. rewrite render_spec, H. cbn. repeat split. eexists. repeat split. Qed.
