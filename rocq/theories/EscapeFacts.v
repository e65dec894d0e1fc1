From Verif Require Import Base Utf8 Utf8Facts Escape.
From Coq Require Import ZArith ZifyBool ZifyNat ZifyN.
Local Open Scope N_scope.

Lemma lookup_spec b : lookup b = Some (if (b =? 60) || (b =? 62) || (b =? 38) || (b =? 34) || (b =? 39)
                                       then Some (html_entity b) else None).
Proof.
  unfold lookup, MIN_CHAR, MAX_CHAR.
  destruct ((34 <=? b) && (b <=? 62)) eqn:E.
  - assert (H : In b (map N.of_nat (seq 34 29))).
    { apply in_map_iff. exists (N.to_nat b). split; [lia|]. apply in_seq. lia. }
    cbn [map seq] in H.
    repeat (destruct H as [H|H]; [rewrite <- H; vm_compute; reflexivity|]). destruct H.
  - replace ((b =? 60) || (b =? 62) || (b =? 38) || (b =? 34) || (b =? 39)) with false by lia. reflexivity.
Qed.

Definition special (b : N) : bool := (b =? 60) || (b =? 62) || (b =? 38) || (b =? 34) || (b =? 39).

Lemma html_entity_plain b : special b = false -> html_entity b = [b].
Proof. unfold special, html_entity. intros H. repeat (destruct (_ =? _); try discriminate H; try reflexivity). Qed.

Lemma enc_char_plain c : scalar c = true -> special c = false -> flat_map html_entity (enc_char c) = enc_char c.
Proof.
  intros Hs Hc. destruct (N.lt_ge_cases c 128) as [Hlt|Hge].
  - rewrite enc_char_ascii by lia. cbn. rewrite html_entity_plain by exact Hc. reflexivity.
  - assert (H : Forall (fun b => special b = false) (enc_char c)).
    { unfold enc_char. replace (c <? 128) with false by lia. unfold special.
      destruct (c <? 2048), (c <? 65536); repeat constructor; lia. }
    induction H as [|b l Hb Hl IH]; cbn; [reflexivity|]. rewrite html_entity_plain by exact Hb. cbn. f_equal. exact IH.
Qed.

Lemma lookup_plain b : special b = false -> lookup b = Some None.
Proof. intros H. rewrite lookup_spec. unfold special in H. rewrite H. reflexivity. Qed.

Lemma html_loop_skip string l rest index last :
  Forall (fun b => special b = false) l ->
  html_loop string (l ++ rest) index last = html_loop string rest (index + length l) last.
Proof.
  revert index; induction l as [|b l IH]; intros index H; cbn [app length].
  - f_equal. lia.
  - inversion H; subst. cbn [html_loop]. rewrite lookup_plain by assumption. cbn [obind].
    rewrite IH by assumption. f_equal. lia.
Qed.

Lemma enc_char_no_special c : scalar c = true -> special c = false -> Forall (fun b => special b = false) (enc_char c).
Proof.
  intros Hs Hc. destruct (N.lt_ge_cases c 128) as [Hlt|Hge].
  - rewrite enc_char_ascii by lia. repeat constructor. exact Hc.
  - unfold enc_char. replace (c <? 128) with false by lia. unfold special.
    destruct (c <? 2048), (c <? 65536); repeat constructor; lia.
Qed.

Lemma special_ascii c : special c = true -> c < 128.
Proof. unfold special. lia. Qed.

Lemma entity_valid c : special c = true -> valid (html_entity c).
Proof.
  intros H. apply valid_ascii. unfold special in H. unfold html_entity.
  destruct (c =? 60); [reflexivity|]. destruct (c =? 62); [reflexivity|]. destruct (c =? 38); [reflexivity|].
  destruct (c =? 34); [reflexivity|]. destruct (c =? 39); [reflexivity|]. discriminate.
Qed.

(** Loop invariant: before the loop [encode done] has been written up to [pend], which is still unwritten. *)
Lemma html_loop_correct cs : forall written pend,
  forallb scalar written = true -> forallb scalar pend = true -> forallb scalar cs = true ->
  Forall (fun c => special c = false) pend ->
  exists ps,
    html_loop (encode written ++ encode pend ++ encode cs) (encode cs)
      (length (encode written) + length (encode pend)) (length (encode written)) = Some ps
    /\ Forall valid ps
    /\ concat ps = encode pend ++ flat_map html_entity (encode cs).
Proof.
  induction cs as [|c cs IH]; intros written pend Hw Hp Hc Hpl.
  - cbn [encode flat_map html_loop]. rewrite app_nil_r.
    pose proof (slice_split written pend [] Hp eq_refl) as Hs.
    cbn [encode flat_map] in Hs. rewrite app_nil_r in Hs.
    rewrite app_length. rewrite Hs. cbn. exists [encode pend]. repeat split.
    + repeat constructor. exists pend. auto.
    + cbn. rewrite app_nil_r. reflexivity.
  - cbn [forallb] in Hc. apply andb_true_iff in Hc as [Hc Hcs].
    destruct (special c) eqn:Esp.
    + rewrite !encode_cons. rewrite (enc_char_ascii c) by (apply special_ascii; assumption).
      cbn [app html_loop]. rewrite lookup_spec. unfold special in Esp. rewrite Esp. cbn [obind].
      assert (Hs : slice (encode written ++ encode pend ++ c :: encode cs) (length (encode written))
                     (length (encode written) + length (encode pend)) = Some (encode pend)).
      { replace (c :: encode cs) with (encode (c :: cs)).
        - apply slice_split; [assumption|]. cbn. rewrite Hc. exact Hcs.
        - rewrite encode_cons, enc_char_ascii by (apply special_ascii; assumption). reflexivity. }
      rewrite Hs. cbn [obind].
      destruct (IH (written ++ pend ++ [c]) []) as (ps & Hps & Hv & Hcat); auto.
      { rewrite !forallb_app, Hw, Hp. cbn. rewrite Hc. reflexivity. }
      replace (encode (written ++ pend ++ [c]) ++ encode [] ++ encode cs)
        with (encode written ++ encode pend ++ c :: encode cs) in Hps.
      2:{ rewrite !encode_app. cbn [encode flat_map]. rewrite enc_char_ascii by (apply special_ascii; assumption).
          rewrite <- !app_assoc. reflexivity. }
      replace (length (encode (written ++ pend ++ [c]))) with (length (encode written) + length (encode pend) + 1)%nat in Hps.
      2:{ rewrite !encode_app, !app_length. cbn [encode flat_map].
          rewrite enc_char_ascii by (apply special_ascii; assumption). cbn [length app]. lia. }
      cbn [encode flat_map length] in Hps. rewrite Nat.add_0_r in Hps.
      replace (S (length (encode written) + length (encode pend))) with (length (encode written) + length (encode pend) + 1)%nat by lia.
      unfold encode in *. rewrite Hps. cbn [obind].
      eexists; split; [reflexivity|]. split.
      * constructor; [exists pend; auto|]. constructor; [apply entity_valid; assumption|assumption].
      * cbn [concat flat_map app]. rewrite Hcat. cbn. reflexivity.
    + rewrite encode_cons.
      rewrite html_loop_skip by (apply enc_char_no_special; assumption).
      destruct (IH written (pend ++ [c])) as (ps & Hps & Hv & Hcat); auto.
      { rewrite forallb_app, Hp. cbn. rewrite Hc. reflexivity. }
      { apply Forall_app. split; [assumption|]. repeat constructor. assumption. }
      exists ps. split; [|split; [exact Hv|]].
      * rewrite <- Hps. f_equal.
        -- rewrite encode_app. cbn [encode flat_map]. rewrite app_nil_r, <- !app_assoc. reflexivity.
        -- rewrite encode_app, app_length. cbn [encode flat_map]. rewrite app_nil_r. lia.
      * rewrite Hcat, encode_app. cbn [encode flat_map]. rewrite app_nil_r, <- app_assoc. f_equal.
        rewrite flat_map_app. f_equal. symmetry. apply enc_char_plain; assumption.
Qed.

Lemma html_write_escaped_correct s : valid s ->
  exists ps, html_write_escaped s = Some ps /\ Forall valid ps /\ concat ps = flat_map html_entity s.
Proof.
  intros [cs [Hcs ->]].
  destruct (html_loop_correct cs [] []) as (ps & Hps & Hv & Hc); auto. exists ps. auto.
Qed.

Lemma escape_pieces_correct ps : Forall valid ps ->
  exists qs, escape_pieces html_write_escaped ps = Some qs /\ Forall valid qs
             /\ concat qs = flat_map html_entity (concat ps).
Proof.
  induction 1 as [|p ps Hp Hps IH].
  - exists []. repeat split. constructor.
  - destruct (html_write_escaped_correct p Hp) as (a & Ha & Hva & Hca).
    destruct IH as (b & Hb & Hvb & Hcb). cbn. rewrite Ha. cbn. rewrite Hb. cbn.
    exists (a ++ b). split; [reflexivity|]. split; [apply Forall_app; auto|].
    rewrite concat_app, Hca, Hcb, flat_map_app. reflexivity.
Qed.

Lemma markup_unsafe_html d : Forall valid (pieces d) ->
  exists d', markup_fmt (new_unsafe d html_write_escaped) = Some d'
    /\ text d' = flat_map html_entity (text d) /\ fin d' = fin d /\ Forall valid (pieces d').
Proof.
  intros H. unfold markup_fmt, new_unsafe. cbn.
  destruct (escape_pieces_correct _ H) as (qs & Hq & Hv & Hc). rewrite Hq. cbn.
  eexists; split; [reflexivity|]. cbn. auto.
Qed.

(** ** Inertness *)
Lemma entity_no_lt b x : In x (html_entity b) -> x <> 60 /\ x <> 62 /\ x <> 34 /\ x <> 39.
Proof.
  unfold html_entity.
  destruct (b =? 60) eqn:?; [intros H; cbn in H; intuition subst; discriminate|].
  destruct (b =? 62) eqn:?; [intros H; cbn in H; intuition subst; discriminate|].
  destruct (b =? 38) eqn:?; [intros H; cbn in H; intuition subst; discriminate|].
  destruct (b =? 34) eqn:?; [intros H; cbn in H; intuition subst; discriminate|].
  destruct (b =? 39) eqn:?; [intros H; cbn in H; intuition subst; discriminate|].
  intros [H|[]]. subst. lia.
Qed.

Lemma html_entity_cases b :
  (exists c, In (html_entity b, c) entities /\ c = b) \/ (html_entity b = [b] /\ b <> 38).
Proof.
  unfold html_entity, entities.
  destruct (N.eqb_spec b 60) as [->|]; [left; exists 60; cbn; auto|].
  destruct (N.eqb_spec b 62) as [->|]; [left; exists 62; cbn; auto|].
  destruct (N.eqb_spec b 38) as [->|]; [left; exists 38; cbn; auto|].
  destruct (N.eqb_spec b 34) as [->|]; [left; exists 34; cbn; auto 6|].
  destruct (N.eqb_spec b 39) as [->|]; [left; exists 39; cbn; auto 7|].
  right. auto.
Qed.

Lemma app_cons_split {A} (x : A) a b p q : a ++ b = p ++ x :: q ->
  (exists q', a = p ++ x :: q' /\ q = q' ++ b) \/ (exists p', p = a ++ p' /\ b = p' ++ x :: q).
Proof.
  revert p; induction a as [|y a IH]; intros p H; cbn in H.
  - right. exists p. auto.
  - destruct p as [|z p]; cbn in H; injection H as -> H.
    + left. exists a. subst. auto.
    + destruct (IH p H) as [(q' & -> & ->)|(p' & -> & ->)].
      * left. exists q'. auto.
      * right. exists p'. auto.
Qed.

Lemma entity_amp_head b p q : html_entity b = p ++ 38 :: q -> p = [].
Proof.
  unfold html_entity.
  repeat (destruct (_ =? _); [intros H; destruct p as [|y p]; [reflexivity|]; cbn in H; injection H as <- H;
                              repeat (destruct p as [|? p]; cbn in H; [discriminate|injection H as <- H]); destruct p; discriminate|]).
  destruct p as [|y p]; [reflexivity|]. intros H. injection H as _ H. destruct p; discriminate.
Qed.

Lemma html_out_inert s : html_inert (flat_map html_entity s).
Proof.
  unfold html_inert.
  assert (Hno : forall x, In x (flat_map html_entity s) -> x <> 60 /\ x <> 62 /\ x <> 34 /\ x <> 39).
  { intros x Hx. apply in_flat_map in Hx as [b [_ Hb]]. eapply entity_no_lt; eauto. }
  repeat split; try (intros H; destruct (Hno _ H) as (?&?&?&?); congruence).
  clear Hno. induction s as [|b s IH]; intros pre post H; cbn in H; [destruct pre; discriminate|].
  destruct (app_cons_split _ _ _ _ _ H) as [(q' & Ha & Hq)|(p' & Hp & Hb)].
  - pose proof (entity_amp_head _ _ _ Ha) as ->. cbn in Ha.
    destruct (html_entity_cases b) as [(c & Hin & Hcb)|[Hb Hne]].
    + exists (html_entity b), c. split; [exact Hin|]. exists (flat_map html_entity s).
      subst post. rewrite Ha. reflexivity.
    + rewrite Hb in Ha. injection Ha as Ha _. congruence.
  - apply (IH p' post Hb).
Qed.

(** ** Losslessness *)
Lemma html_decode_skip l rest : html_decode_from (length l) (l ++ rest) = html_decode_from 0 rest.
Proof. induction l as [|b l IH]; [reflexivity|]. cbn [length app html_decode_from]. exact IH. Qed.

Lemma match_entity_plain b s : b <> 38 -> match_entity entities (b :: s) = None.
Proof.
  intros H. unfold entities, match_entity, starts_with, lit. cbn.
  destruct b as [|p]; [reflexivity|].
  repeat (destruct p as [p|p|]; try reflexivity; try congruence).
Qed.

Lemma html_decode_entities s : html_decode (flat_map html_entity s) = s.
Proof.
  unfold html_decode. induction s as [|b s IH]; [reflexivity|].
  cbn [flat_map].
  destruct (special b) eqn:Esp.
  - unfold special in Esp. unfold html_entity at 1.
    destruct (N.eqb_spec b 60) as [->|]; [cbn; f_equal; exact IH|].
    destruct (N.eqb_spec b 62) as [->|]; [cbn; f_equal; exact IH|].
    destruct (N.eqb_spec b 38) as [->|]; [cbn; f_equal; exact IH|].
    destruct (N.eqb_spec b 34) as [->|]; [cbn; f_equal; exact IH|].
    destruct (N.eqb_spec b 39) as [->|]; [cbn; f_equal; exact IH|].
    discriminate.
  - rewrite html_entity_plain by exact Esp. cbn [app html_decode_from].
    rewrite match_entity_plain by (unfold special in Esp; lia). f_equal. exact IH.
Qed.

Lemma escape_pieces_text ps : exists qs, escape_pieces text_write_escaped ps = Some qs /\ concat qs = concat ps.
Proof.
  induction ps as [|p ps [qs [Hq Hc]]]; [exists []; auto|].
  cbn. rewrite Hq. cbn. exists (p :: qs). cbn. rewrite Hc. auto.
Qed.

Lemma markup_unsafe_inert d : Forall valid (pieces d) ->
  exists d', markup_fmt (new_unsafe d html_write_escaped) = Some d' /\ html_inert (text d').
Proof. intros H. destruct (markup_unsafe_html d H) as (d' & H1 & H2 & _). exists d'. rewrite H2. auto using html_out_inert. Qed.

Lemma markup_unsafe_lossless d : Forall valid (pieces d) ->
  exists d', markup_fmt (new_unsafe d html_write_escaped) = Some d' /\ html_decode (text d') = text d /\ fin d' = fin d.
Proof. intros H. destruct (markup_unsafe_html d H) as (d' & H1 & H2 & H3 & _). exists d'. rewrite H2, html_decode_entities. auto. Qed.

Lemma same_text_same_output d1 d2 o1 o2 :
  Forall valid (pieces d1) -> Forall valid (pieces d2) -> text d1 = text d2 ->
  markup_fmt (new_unsafe d1 html_write_escaped) = Some o1 ->
  markup_fmt (new_unsafe d2 html_write_escaped) = Some o2 -> text o1 = text o2.
Proof.
  intros H1 H2 He E1 E2.
  destruct (markup_unsafe_html d1 H1) as (a & Ha & Ta & _). destruct (markup_unsafe_html d2 H2) as (b & Hb & Tb & _).
  congruence.
Qed.

Lemma markup_text_verbatim d :
  exists d', markup_fmt (new_unsafe d text_write_escaped) = Some d' /\ text d' = text d /\ fin d' = fin d.
Proof.
  destruct (escape_pieces_text (pieces d)) as (qs & H1 & H2). unfold markup_fmt, new_unsafe. cbn. rewrite H1. cbn.
  eexists; split; [reflexivity|]. cbn. auto.
Qed.
