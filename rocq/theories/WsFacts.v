From Verif Require Import Base Ws.
Local Open Scope N_scope.

Lemma skip_ws_spec s : exists a, s = a ++ skip_ws s /\ Forall (fun c => is_ws c = true) a
  /\ (skip_ws s = [] \/ exists c t, skip_ws s = c :: t /\ is_ws c = false).
Proof.
  induction s as [|c s (a & H1 & H2 & H3)]; cbn; [exists []; auto|].
  destruct (is_ws c) eqn:E.
  - exists (c :: a). cbn. rewrite <- H1. auto.
  - exists []. repeat split; auto. right. eauto.
Qed.

(** The three parts of a literal: blanks, core, blanks; the core has no blank at its ends; an all-blank text is [lws]. *)
Lemma split_correct s :
  let l := split_ws_parts s in
  s = lws l ++ lval l ++ rws l /\ Forall (fun c => is_ws c = true) (lws l) /\ Forall (fun c => is_ws c = true) (rws l)
  /\ (lval l = [] -> rws l = [])
  /\ (forall c t, lval l = c :: t -> is_ws c = false) /\ (forall c t, lval l = t ++ [c] -> is_ws c = false).
Proof.
  unfold split_ws_parts. destruct (skip_ws_spec s) as (a & H1 & H2 & H3). cbn [lws lval rws].
  destruct (skip_ws_spec (rev (skip_ws s))) as (b & H4 & H5 & H6).
  set (core := skip_ws (rev (skip_ws s))) in *.
  assert (Hts : skip_ws s = rev core ++ rev b).
  { rewrite <- (rev_involutive (skip_ws s)), H4, rev_app_distr. reflexivity. }
  assert (Hlen : (length s - length (skip_ws s))%nat = length a).
  { apply (f_equal (@length _)) in H1. rewrite app_length in H1. lia. }
  assert (Hl : firstn (length s - length (skip_ws s)) s = a).
  { rewrite Hlen, H1 at 1. rewrite firstn_app, firstn_all, Nat.sub_diag. cbn. apply app_nil_r. }
  assert (Hr : skipn (length (rev core)) (skip_ws s) = rev b).
  { rewrite Hts, skipn_app, skipn_all, Nat.sub_diag. reflexivity. }
  rewrite Hl, Hr. split; [|split; [exact H2|split; [apply Forall_rev; exact H5|split; [|split]]]].
  - rewrite <- Hts. exact H1.
  - intros Hc. apply (f_equal (@rev _)) in Hc. rewrite rev_involutive in Hc. cbn in Hc.
    rewrite Hc in Hts. cbn in Hts. destruct H3 as [H3|(c & t & H3 & H3')].
    + rewrite H3 in H4. cbn in H4. destruct b; [reflexivity|discriminate].
    + exfalso. apply (f_equal (@rev _)) in Hts. rewrite rev_involutive in Hts.
      rewrite H3 in Hts. subst b. rewrite Forall_forall in H5. specialize (H5 c). rewrite H5 in H3'; [discriminate|].
      apply in_rev. rewrite rev_involutive. left. reflexivity.
  - intros c t Hc. destruct H3 as [H3|(d & u & H3 & H3')].
    + rewrite H3, Hc in Hts. discriminate.
    + rewrite H3, Hc in Hts. cbn in Hts. congruence.
  - intros c t Hc. apply (f_equal (@rev _)) in Hc. rewrite rev_involutive, rev_app_distr in Hc. cbn in Hc.
    destruct H6 as [H6|(d & u & H6 & H6')]; congruence.
Qed.

Lemma newline_any s : has_newline s = existsb (N.eqb 10) s.
Proof. unfold has_newline. induction s as [|c s IH]; [reflexivity|]. cbn [mem_chr existsb]. rewrite IH. reflexivity. Qed.
Lemma trim_or dflt w : should_trim_ws dflt w = hd_or dflt w.
Proof. reflexivity. Qed.
Lemma flush_out dflt l st : concat (fst (flush_ws dflt l st)) =
  match next_ws st with None => [] | Some v => treat (hd_or dflt l) v end.
Proof.
  unfold flush_ws, treat, minimized. destruct (next_ws st) as [v|]; [|reflexivity]. cbn [fst].
  rewrite newline_any, trim_or. destruct (hd_or dflt l), v; cbn; rewrite ?app_nil_r; reflexivity.
Qed.
Lemma flush_st dflt l st : snd (flush_ws dflt l st) = {| next_ws := None; skip := skip st |}.
Proof. unfold flush_ws. destruct st as [[v|] h]; reflexivity. Qed.

Lemma handle_out dflt w st : concat (fst (handle_ws dflt w st)) =
  match next_ws st with None => [] | Some v => treat (hd_or dflt (ws_l w)) v end.
Proof.
  unfold handle_ws. pose proof (flush_out dflt (ws_l w) st). destruct (flush_ws dflt (ws_l w) st). exact H.
Qed.
Lemma handle_st dflt w st : snd (handle_ws dflt w st) = {| next_ws := None; skip := hd_or dflt (ws_r w) |}.
Proof.
  unfold handle_ws. pose proof (flush_st dflt (ws_l w) st). destruct (flush_ws dflt (ws_l w) st). cbn in *. subst. reflexivity.
Qed.
Lemma flush_end_out dflt st : concat (flush_end dflt st) =
  match next_ws st with None => [] | Some v => treat (skip st) v end.
Proof.
  unfold flush_end. destruct (next_ws st) eqn:E; [|reflexivity]. rewrite flush_out, E. reflexivity.
Qed.

(** One literal: what is written at once, and what is pending. *)
Lemma visit_lit_spec l before : lit_ok l ->
  exists out st, visit_lit l {| next_ws := None; skip := hd_or Preserve before |} = Some (out, st) /\
   forall after : option handling,
    concat out ++ match next_ws st with None => [] | Some v => treat (match after with Some h => h | None => skip st end) v end
    = lit_spec combine_code before after l.
Proof.
  intros Hok. unfold visit_lit, lit_spec, lit_ok, minimized in *. cbn [next_ws skip].
  destruct l as [lw v rw]; cbn [lws lval rws] in *.
  destruct v as [|c v].
  - rewrite (Hok eq_refl) in *. destruct lw as [|x lw].
    + cbn. eexists; eexists; split; [reflexivity|]. intros after. cbn.
      destruct before as [[| |]|], after as [[| |]|]; reflexivity.
    + destruct before as [[| |]|]; cbn; eexists; eexists; (split; [reflexivity|]); intros [[| |]|]; cbn; rewrite ?(newline_any lw : mem_chr 10 lw = _); reflexivity.
  - destruct lw as [|x lw], rw as [|y rw], before as [[| |]|]; cbn; eexists; eexists; (split; [reflexivity|]);
      intros [[| |]|]; cbn; rewrite ?app_nil_r, <- ?app_assoc, ?(newline_any rw : mem_chr 10 rw = _), ?(newline_any lw : mem_chr 10 lw = _); reflexivity.
Qed.

Lemma ws_run_gen dflt its : forall before, items_ok its ->
  exists out, ws_run dflt its {| next_ws := None; skip := hd_or Preserve before |} = Some out
    /\ concat out = spec_run dflt combine_code before its.
Proof.
  induction its as [|it its IH]; intros before Hok.
  - exists []. auto.
  - destruct it as [l|w]; cbn [ws_run spec_run items_ok] in *.
    + destruct Hok as (Hl & Hn & Hok).
      destruct (visit_lit_spec l before Hl) as (o & st & Hv & Hs). rewrite Hv. cbn [obind fst snd].
      destruct its as [|[l2|w] its]; [|contradiction|].
      * cbn [ws_run]. eexists; split; [reflexivity|]. rewrite concat_app, flush_end_out.
        cbn [spec_run]. rewrite app_nil_r. apply (Hs None).
      * destruct (IH None Hok) as (o2 & H2 & H3). cbn [ws_run] in *.
        pose proof (handle_st dflt w st) as E1. pose proof (handle_out dflt w st) as E2.
        pose proof (handle_st dflt w {| next_ws := None; skip := Preserve |}) as E3.
        pose proof (handle_out dflt w {| next_ws := None; skip := Preserve |}) as E4. cbn [hd_or] in H2.
        destruct (handle_ws dflt w st) as [oa sa]. destruct (handle_ws dflt w {| next_ws := None; skip := Preserve |}) as [ob sb].
        cbn [fst snd next_ws] in *. subst sa sb.
        destruct (ws_run dflt its _) as [o3|]; [|discriminate]. cbn [obind] in *. injection H2 as <-.
        eexists; split; [reflexivity|]. rewrite !concat_app in *. rewrite E4 in H3. cbn [app] in H3.
        rewrite E2, H3, app_assoc. f_equal. apply (Hs (Some _)).
    + pose proof (handle_st dflt w {| next_ws := None; skip := hd_or Preserve before |}) as E1.
      pose proof (handle_out dflt w {| next_ws := None; skip := hd_or Preserve before |}) as E2.
      destruct (handle_ws dflt w _) as [oa sa]. cbn [fst snd next_ws] in *. subst sa.
      destruct (IH (Some (hd_or dflt (ws_r w))) Hok) as (o2 & H2 & H3). cbn [hd_or] in H2. rewrite H2. cbn [obind].
      eexists; split; [reflexivity|]. rewrite concat_app, E2. exact H3.
Qed.

Lemma ws_run_correct dflt its : items_ok its ->
  exists out, ws_run dflt its ws_init = Some out /\ concat out = spec_run dflt combine_code None its.
Proof. apply (ws_run_gen dflt its None). Qed.

Lemma spec_agree dflt its : forall before, no_conflict dflt before its ->
  spec_run dflt combine_code before its = spec_run dflt stronger before its.
Proof.
  induction its as [|[l|w] its IH]; intros before H; cbn [spec_run no_conflict] in *; [reflexivity| |apply IH; exact H].
  destruct H as [H1 H2]. rewrite (IH None H2). f_equal. unfold lit_spec. destruct (lval l) eqn:El; [|reflexivity].
  destruct its as [|[l2|w] its]; [reflexivity|reflexivity|].
  destruct before as [a|]; [|reflexivity].
  destruct (lws l) as [|x lw] eqn:Elw; [destruct (combine_code a _), (stronger a _); reflexivity|].
  destruct a, (hd_or dflt (ws_l w)) eqn:Ew; try reflexivity.
  exfalso. apply H1. repeat split; auto; discriminate.
Qed.

Lemma ws_documented dflt its : items_ok its -> no_conflict dflt None its ->
  exists out, ws_run dflt its ws_init = Some out /\ concat out = spec_run dflt stronger None its.
Proof.
  intros H1 H2. destruct (ws_run_correct dflt its H1) as (o & A & B). exists o. split; [exact A|].
  rewrite B. apply spec_agree. exact H2.
Qed.
