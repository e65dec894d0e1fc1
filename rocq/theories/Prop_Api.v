(** * C49: all ways to render agree; C50: web responses; C51 (second half): the size hint has no influence. *)
From Verif Require Import Base Api ApiFacts.
Local Open Scope N_scope.

(** C49.  [full_text] is what the template writes if no write fails and [outcome] how it ends.  With writers that do not
    fail every entry point delivers that text and that outcome (Display reports any error as a formatting error). *)
Theorem C49_render : forall h p, render h p = match outcome p with None => inl (full_text p) | Some e => inr e end.
Proof. exact render_spec. Qed.
Print Assumptions C49_render.
Theorem C49_render_into_string : forall p s, render_into string_writer p s = (s ++ full_text p, outcome p).
Proof. exact string_render. Qed.
Print Assumptions C49_render_into_string.
Theorem C49_to_string : forall p, to_string p = match outcome p with None => Ok (full_text p) | Some _ => Panic end.
Proof. exact to_string_spec. Qed.
Print Assumptions C49_to_string.
Theorem C49_write_into : forall panics w seen, io_observes w seen -> (forall s t, snd (io_write_all w s t) = None) ->
  forall p s s' r, write_into panics w p s = (s', r) -> seen s' = seen s ++ full_text p /\ (r = Ok tt <-> outcome p = None).
Proof. exact write_into_ok. Qed.
Print Assumptions C49_write_into.
(** For every writer that may fail at any point, if the template passes on write errors: all of the text and the
    template's outcome, or a prefix of the text and an error. *)
Theorem C49_failing_writer : forall w seen, observes w seen -> forall p, propagates p -> forall s s' r, render_into w p s = (s', r) ->
  (seen s' = seen s ++ full_text p /\ r = outcome p) \/
  (exists a b, full_text p = a ++ b /\ seen s' = seen s ++ a /\ r = Some EFmt).
Proof. exact render_into_prefix. Qed.
Print Assumptions C49_failing_writer.
Theorem C49_failing_io_writer : forall panics w seen, io_observes w seen -> forall p, propagates p ->
  forall s s' r, write_into panics w p s = (s', r) ->
  exists a b, full_text p = a ++ b /\ seen s' = seen s ++ a /\
    (r = Ok tt -> b = [] /\ outcome p = None) /\ (outcome p = None -> r <> Panic).
Proof. exact write_into_spec. Qed.
Print Assumptions C49_failing_io_writer.
(** A template that writes ab, then cd, and a writer with room for three characters. *)
Definition abcd : render_prog :=
  Write (lit "ab") (fun ok => if ok then Write (lit "cd") (fun ok => if ok then Ret None else Ret (Some EFmt)) else Ret (Some EFmt)).
Definition small : io_writer :=
  {| io_state := str; io_write_all := fun s t => let r := s ++ t in
       if Nat.leb (length r) 3 then (r, None) else (firstn 3 r, Some (lit "full")) |}.
Example C49_example : propagates abcd /\ write_into true small abcd [] = (lit "abc", Err (lit "full")) /\ render 0 abcd = inl (lit "abcd").
Proof. split; [repeat constructor|]. vm_compute. auto. Qed.
(** A template that fails by itself (an error passed on with a question mark): [render] returns the error, but
    [write_into] to a writer that works panics, with a standard library from 1.83 on. *)
Theorem C49_same_failure_refuted : exists p, propagates p /\ render 0 p = inr (ECustom (lit "x")) /\
  snd (write_into true small p []) = Panic.
Proof. exists (Ret (Some (ECustom (lit "x")))). split; [constructor|]. vm_compute. auto. Qed.
Print Assumptions C49_same_failure_refuted.

(** C50. *)
Theorem C50_success : forall mime h p, outcome p = None ->
  let r := render h p in let good x := status x = 200 /\ content_type x = mime /\ body x = full_text p in
  good (warp_into_response mime r) /\ good (rocket_into_response mime r) /\ good (actix_into_response mime r) /\
  good (axum_into_response mime r) /\ (exists x, rocket_respond mime r = inl x /\ good x).
Proof. exact web_success. Qed.
Print Assumptions C50_success.
(** For every template: an error response contains none of the template's text, only the error's. *)
Theorem C50_error_partial : forall mime h p e, outcome p = Some e ->
  status (warp_into_response mime (render h p)) = 500 /\ body (warp_into_response mime (render h p)) = err_text e /\
  status (rocket_into_response mime (render h p)) = 500 /\ rocket_respond mime (render h p) = inr 500 /\
  status (actix_into_response mime (render h p)) = 500 /\ body (actix_into_response mime (render h p)) = err_text e /\
  body (axum_into_response mime (render h p)) = err_text e.
Proof. exact web_error. Qed.
Print Assumptions C50_error_partial.
Example C50_example : outcome (Write (lit "part") (fun _ => Ret (Some (ECustom (lit "no"))))) = Some (ECustom (lit "no")).
Proof. reflexivity. Qed.
(** axum: the error text is sent with status 200 (the book promises 500 and an empty body). *)
Theorem C50_axum_error_status_refuted : exists p e, outcome p = Some e /\ status (axum_into_response (lit "text/html") (render 0 p)) = 200.
Proof. exists (Ret (Some (ECustom (lit "no")))), (ECustom (lit "no")). vm_compute. auto. Qed.
Print Assumptions C50_axum_error_status_refuted.

(** C51: whatever the hint, the same text. *)
Theorem C51_hint_has_no_influence : forall h1 h2 p, render h1 p = render h2 p.
Proof. exact (fun h1 h2 p => eq_trans (render_spec h1 p) (eq_sym (render_spec h2 p))). Qed.
Print Assumptions C51_hint_has_no_influence.
