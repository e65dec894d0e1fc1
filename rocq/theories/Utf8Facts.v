From Verif Require Import Base Utf8.
From Coq Require Import ZArith ZifyBool ZifyNat ZifyN.
Ltac Zify.zify_post_hook ::= Z.div_mod_to_equations.
Local Open Scope N_scope.

Lemma enc_char_shape c : scalar c = true ->
  exists b tl, enc_char c = b :: tl /\ not_cont b = true /\ Forall (fun x => not_cont x = false) tl
   /\ (c < 128 -> b = c /\ tl = []) /\ (128 <= c -> 128 <= b /\ tl <> []) .
Proof.
  unfold scalar, enc_char, not_cont. intros Hs.
  destruct (c <? 128) eqn:E1; [|destruct (c <? 2048) eqn:E2; [|destruct (c <? 65536) eqn:E3]];
    eexists; eexists; (split; [reflexivity|]); repeat split;
    repeat match goal with |- Forall _ _ => constructor end; intros; try discriminate; try lia.
Qed.

Lemma enc_char_nonnil c : enc_char c <> [].
Proof. unfold enc_char. destruct (c <? 128), (c <? 2048), (c <? 65536); discriminate. Qed.

Lemma enc_char_ascii c : c < 128 -> enc_char c = [c].
Proof. intros H. unfold enc_char. destruct (N.ltb_spec c 128); [reflexivity|lia]. Qed.

Lemma encode_app a b : encode (a ++ b) = encode a ++ encode b.
Proof. apply flat_map_app. Qed.

Lemma encode_cons c cs : encode (c :: cs) = enc_char c ++ encode cs.
Proof. reflexivity. Qed.

Lemma valid_nil : valid [].
Proof. exists []. auto. Qed.

Lemma valid_app a b : valid a -> valid b -> valid (a ++ b).
Proof.
  intros [ca [Ha ->]] [cb [Hb ->]]. exists (ca ++ cb). rewrite forallb_app, Ha, Hb, encode_app. auto.
Qed.

Lemma valid_concat l : Forall valid l -> valid (concat l).
Proof. induction 1; cbn; auto using valid_nil, valid_app. Qed.

Lemma valid_ascii s : forallb (fun b => b <? 128) s = true -> valid s.
Proof.
  induction s as [|b s IH]; intros H; [apply valid_nil|].
  cbn in H. apply andb_true_iff in H as [H1 H2]. destruct (IH H2) as [cs [Hc ->]].
  exists (b :: cs). cbn. rewrite Hc. split.
  - unfold scalar. lia.
  - rewrite enc_char_ascii by lia. reflexivity.
Qed.

(** The start of the string, and of what follows any complete characters, is a boundary. *)
Lemma boundary_split a b : forallb scalar b = true ->
  is_char_boundary (encode a ++ encode b) (length (encode a)) = true.
Proof.
  intros Hb. unfold is_char_boundary.
  destruct (length (encode a)) eqn:El; [reflexivity|]. rewrite <- El.
  rewrite nth_error_app2 by lia. rewrite Nat.sub_diag.
  destruct b as [|c b]; cbn [encode flat_map].
  - cbn. rewrite app_nil_r. apply Nat.eqb_refl.
  - cbn in Hb. apply andb_true_iff in Hb as [Hc _].
    destruct (enc_char_shape c Hc) as (x & tl & Hx & Hn & _). rewrite Hx. cbn. exact Hn.
Qed.

(** Conversely every boundary of a valid string is between characters. *)
Lemma boundary_inv cs i : forallb scalar cs = true -> (i <= length (encode cs))%nat ->
  is_char_boundary (encode cs) i = true ->
  exists a b, cs = a ++ b /\ i = length (encode a).
Proof.
  revert i; induction cs as [|c cs IH]; intros i Hs Hi Hb.
  - cbn in Hi. exists [], []. split; auto. cbn. lia.
  - cbn in Hs. apply andb_true_iff in Hs as [Hc Hs].
    destruct (enc_char_shape c Hc) as (x & tl & Hx & Hn & Htl & _).
    destruct i as [|i].
    { exists [], (c :: cs). split; auto. }
    rewrite encode_cons, Hx in *.
    destruct (Nat.lt_ge_cases i (length tl)) as [Hlt|Hge].
    + (* inside the first character *)
      exfalso. unfold is_char_boundary in Hb. cbn [app] in Hb. cbn [nth_error] in Hb.
      rewrite nth_error_app1 in Hb by lia.
      destruct (nth_error tl i) as [y|] eqn:Ey.
      * apply nth_error_In in Ey. rewrite Forall_forall in Htl. specialize (Htl y Ey). congruence.
      * apply nth_error_None in Ey. lia.
    + specialize (IH (i - length tl)%nat Hs).
      cbn [app length] in Hi. rewrite app_length in Hi.
      destruct IH as (a & b & Hab & Hia).
      * lia.
      * unfold is_char_boundary in *. destruct (i - length tl)%nat eqn:Ed; [reflexivity|].
        cbn [app nth_error] in Hb. rewrite nth_error_app2 in Hb by lia. rewrite Ed in Hb.
        cbn [length] in Hb. rewrite app_length in Hb.
        destruct (nth_error (encode cs) (S n)); auto.
        apply Nat.eqb_eq in Hb. apply Nat.eqb_eq. lia.
      * exists (c :: a), b. subst cs. split; [reflexivity|].
        rewrite encode_cons, Hx. cbn [app length]. rewrite app_length. lia.
Qed.

Lemma slice_split a b c : forallb scalar b = true -> forallb scalar c = true ->
  slice (encode a ++ encode b ++ encode c) (length (encode a)) (length (encode a) + length (encode b)) = Some (encode b).
Proof.
  intros Hb Hc. unfold slice.
  assert (H1 : is_char_boundary (encode a ++ encode b ++ encode c) (length (encode a)) = true).
  { rewrite <- encode_app. apply boundary_split. rewrite forallb_app, Hb, Hc. reflexivity. }
  assert (H2 : is_char_boundary (encode a ++ encode b ++ encode c) (length (encode a) + length (encode b)) = true).
  { rewrite app_assoc, <- app_length, <- (encode_app a b). apply boundary_split. exact Hc. }
  rewrite H1, H2, !app_length.
  destruct (Nat.leb_spec (length (encode a)) (length (encode a) + length (encode b))); [|lia].
  destruct (Nat.leb_spec (length (encode a) + length (encode b)) (length (encode a) + (length (encode b) + length (encode c)))); [|lia].
  cbn. f_equal. replace (length (encode a) + length (encode b) - length (encode a))%nat with (length (encode b)) by lia.
  rewrite skipn_app, skipn_all, Nat.sub_diag. cbn.
  rewrite firstn_app, firstn_all, Nat.sub_diag. cbn. apply app_nil_r.
Qed.
