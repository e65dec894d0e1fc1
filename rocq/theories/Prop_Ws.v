(** * C26, C27: whitespace control. *)
From Verif Require Import Base Ws WsFacts.
From Coq Require Import Lia ZArith ZifyBool ZifyNat ZifyN.
Local Open Scope N_scope.

(** C26.  For every sequence of tags and literals as the parser delivers them, the machine of the generator never fails
    its assertions and outputs each literal exactly as [lit_spec] says from the two adjacent markers alone. *)
Theorem C26_whitespace_local : forall dflt its, items_ok its ->
  exists out, ws_run dflt its ws_init = Some out /\ concat out = spec_run dflt combine_code None its.
Proof. exact ws_run_correct. Qed.
Print Assumptions C26_whitespace_local.

(** C26.  The blanks are space, tab, carriage return and newline. *)
Theorem C26_blanks c : is_ws c = true <-> In c [32; 9; 13; 10].
Proof. unfold is_ws. cbn [In]. lia. Qed.
Print Assumptions C26_blanks.

(** The parser's split of a literal, which [items_ok] relies on. *)
Theorem C26_split : forall s, let l := split_ws_parts s in
  s = lws l ++ lval l ++ rws l /\ Forall (fun c => is_ws c = true) (lws l) /\ Forall (fun c => is_ws c = true) (rws l)
  /\ (lval l = [] -> rws l = [])
  /\ (forall c t, lval l = c :: t -> is_ws c = false) /\ (forall c t, lval l = t ++ [c] -> is_ws c = false).
Proof. exact split_correct. Qed.
Print Assumptions C26_split.

Definition tag_ws (l r : option handling) : item := ITag {| ws_l := l; ws_r := r |}.
Definition text_item (s : str) : item := ILit (split_ws_parts s).
Example C26_example :
  let its := [text_item (lit " a "); tag_ws (Some Suppress) (Some Minimize); text_item ([10] ++ lit "  b  ");
              tag_ws None None; text_item (lit "  "); tag_ws None (Some Suppress); text_item (lit " c" ++ [10])] in
  items_ok its /\ option_map (@concat N) (ws_run Preserve its ws_init) = Some (lit " a" ++ [10] ++ lit "b    c" ++ [10]).
Proof. split; [|vm_compute; reflexivity]. repeat split; vm_compute; try discriminate; auto. Qed.

(** C27.  Full statement: [concat out = spec_run dflt stronger None its] for all [items_ok its], where [stronger] is the
    documented preference for two markers on one blank literal.  It holds unless a blank literal stands between a
    minimizing right marker and a preserving left marker. *)
Theorem C27_preference_partial : forall dflt its, items_ok its -> no_conflict dflt None its ->
  exists out, ws_run dflt its ws_init = Some out /\ concat out = spec_run dflt stronger None its.
Proof. exact ws_documented. Qed.
Print Assumptions C27_preference_partial.
Example C27_example :
  let its := [tag_ws None (Some Preserve); text_item (lit "  "); tag_ws (Some Minimize) (Some Minimize); text_item (lit "  ");
              tag_ws (Some Suppress) None] in
  items_ok its /\ no_conflict Preserve None its /\ option_map (@concat N) (ws_run Preserve its ws_init) = Some (lit " ").
Proof. vm_compute. repeat split; try discriminate; auto; intros (_ & _ & H & H'); discriminate. Qed.

(** The remaining case goes wrong: in [{{ a ~}}  {{+ b }}] both blanks are kept although minimize should win; even an
    absent marker (default preserve) on the right beats the inline minimize. *)
Theorem C27_preference_refuted : exists its, items_ok its /\
  option_map (@concat N) (ws_run Preserve its ws_init) = Some (lit "  ") /\ spec_run Preserve stronger None its = lit " ".
Proof.
  exists [tag_ws None (Some Minimize); text_item (lit "  "); tag_ws (Some Preserve) None].
  vm_compute. repeat split; try discriminate; auto.
Qed.
Print Assumptions C27_preference_refuted.
Theorem C27_inline_over_default_refuted : exists its, items_ok its /\ its = [tag_ws None (Some Minimize); text_item (lit "  "); tag_ws None None]
  /\ option_map (@concat N) (ws_run Preserve its ws_init) = Some (lit "  ") /\ spec_run Preserve stronger None its = lit " ".
Proof.
  exists [tag_ws None (Some Minimize); text_item (lit "  "); tag_ws None None].
  vm_compute. repeat split; try discriminate; auto.
Qed.
Print Assumptions C27_inline_over_default_refuted.
