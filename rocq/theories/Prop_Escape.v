(** * C01-C04: escaping.  Only statements; proofs are in EscapeFacts.v. *)
From Verif Require Import Base Utf8 Escape EscapeFacts.
Local Open Scope N_scope.

(** C01.  Whatever (valid UTF-8) pieces a value writes, its HTML-escaped display does not panic and is inert. *)
Theorem C01_html_output_inert : forall d, Forall valid (pieces d) ->
  exists d', markup_fmt (new_unsafe d html_write_escaped) = Some d' /\ html_inert (text d').
Proof. exact markup_unsafe_inert. Qed.
Print Assumptions C01_html_output_inert.

Example C01_example :
  let d := {| pieces := [lit "<a href="; lit """x&y'"; lit ">"]; fin := true |} in
  Forall valid (pieces d) /\
  option_map text (markup_fmt (new_unsafe d html_write_escaped)) = Some (lit "&lt;a href=&quot;x&amp;y&#x27;&gt;").
Proof. split; [repeat constructor; apply Utf8Facts.valid_ascii; reflexivity | vm_compute; reflexivity]. Qed.

(** C02.  Decoding the entities gives the displayed text back; and the error status of the value is kept. *)
Theorem C02_html_lossless : forall d, Forall valid (pieces d) ->
  exists d', markup_fmt (new_unsafe d html_write_escaped) = Some d' /\ html_decode (text d') = text d /\ fin d' = fin d.
Proof. exact markup_unsafe_lossless. Qed.
Print Assumptions C02_html_lossless.

(** C03.  The escaped text depends only on the text, not on the pieces: it is the character-wise replacement of the
    whole text, every write is valid UTF-8, and two values with the same text give the same output. *)
Theorem C03_escape_chunk_independent : forall d, Forall valid (pieces d) ->
  exists d', markup_fmt (new_unsafe d html_write_escaped) = Some d'
    /\ text d' = flat_map html_entity (text d) /\ fin d' = fin d /\ Forall valid (pieces d').
Proof. exact markup_unsafe_html. Qed.
Print Assumptions C03_escape_chunk_independent.

Theorem C03_same_text_same_output : forall d1 d2 o1 o2,
  Forall valid (pieces d1) -> Forall valid (pieces d2) -> text d1 = text d2 ->
  markup_fmt (new_unsafe d1 html_write_escaped) = Some o1 ->
  markup_fmt (new_unsafe d2 html_write_escaped) = Some o2 -> text o1 = text o2.
Proof. exact same_text_same_output. Qed.
Print Assumptions C03_same_text_same_output.

Example C03_example :
  option_map text (markup_fmt (new_unsafe {| pieces := [lit "a<"; []; lit "b"]; fin := true |} html_write_escaped))
  = option_map text (markup_fmt (new_unsafe {| pieces := [lit "a"; lit "<b"]; fin := true |} html_write_escaped)).
Proof. vm_compute. reflexivity. Qed.

(** C04.  The plain-text escaper writes the text verbatim; a safe value is written verbatim under any escaper;
    [mark_safe] makes any value safe. *)
Theorem C04_text_verbatim : forall d,
  exists d', markup_fmt (new_unsafe d text_write_escaped) = Some d' /\ text d' = text d /\ fin d' = fin d.
Proof. exact markup_text_verbatim. Qed.
Print Assumptions C04_text_verbatim.

Theorem C04_safe_verbatim : forall d e,
  markup_fmt (new_safe d e) = Some d /\ markup_fmt (mark_safe (new_unsafe d e)) = Some d
  /\ markup_fmt (mark_safe (new_safe d e)) = Some d.
Proof. exact (fun d e => conj eq_refl (conj eq_refl eq_refl)). Qed.
Print Assumptions C04_safe_verbatim.

Example C04_example :
  option_map text (markup_fmt (new_unsafe {| pieces := [lit "<b>"; lit "&"]; fin := true |} text_write_escaped)) = Some (lit "<b>&").
Proof. vm_compute. reflexivity. Qed.
