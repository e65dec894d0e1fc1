From Verif Require Import Base Utf8 Utf8Facts Escape EscapeFacts Filters FilterSpec.
From Coq Require Import ZArith ZifyBool ZifyNat ZifyN.
Ltac Zify.zify_post_hook ::= Z.div_mod_to_equations.
Local Open Scope N_scope.

(** ** trim *)
Lemma is_whitespace_spec c : is_whitespace c = true <-> In c white_space.
Proof.
  split.
  - intros H. unfold is_whitespace in H. unfold white_space. cbn [In]. lia.
  - unfold white_space. cbn [In]. intros H. repeat (destruct H as [<-|H]; [reflexivity|]). destruct H.
Qed.
Lemma trim_start_spec s : exists a, s = a ++ trim_start s /\ all_ws a /\
  (trim_start s = [] \/ exists c t, trim_start s = c :: t /\ is_whitespace c = false).
Proof.
  induction s as [|c s IH]; cbn.
  - exists []. repeat split; auto. constructor.
  - destruct (is_whitespace c) eqn:E.
    + destruct IH as (a & H1 & H2 & H3). exists (c :: a). cbn. rewrite <- H1. repeat split; auto. constructor; auto.
    + exists []. cbn. repeat split; [constructor|]. right. exists c, s. auto.
Qed.

Lemma trim_end_spec s : exists b, s = trim_end s ++ b /\ all_ws b /\
  (trim_end s = [] \/ exists c t, trim_end s = t ++ [c] /\ is_whitespace c = false).
Proof.
  unfold trim_end. destruct (trim_start_spec (rev s)) as (a & H1 & H2 & H3).
  exists (rev a). split; [|split].
  - rewrite <- rev_app_distr, <- H1, rev_involutive. reflexivity.
  - unfold all_ws. apply Forall_rev. exact H2.
  - destruct H3 as [H3|(c & t & H3 & H4)]; rewrite H3; cbn; [auto|]. right. exists c, (rev t). auto.
Qed.

Lemma trim_start_app_ws a s : all_ws a -> trim_start (a ++ s) = trim_start s.
Proof. induction 1 as [|c a Hc Ha IH]; cbn; [reflexivity|]. rewrite Hc. exact IH. Qed.

Lemma trim_start_all a : trim_start a = [] -> all_ws a.
Proof. destruct (trim_start_spec a) as (b & H1 & H2 & _). intros H. rewrite H, app_nil_r in H1. rewrite H1. exact H2. Qed.

Lemma trim_start_cons_app s t : trim_start s <> [] -> trim_start (s ++ t) = trim_start s ++ t.
Proof.
  induction s as [|c s IH]; cbn; [congruence|]. destruct (is_whitespace c); [exact IH|reflexivity].
Qed.

Lemma collector_fold ps : forall done,
  fold_left collector_write ps (trim_start done) = trim_start (done ++ concat ps).
Proof.
  induction ps as [|p ps IH]; intros done; cbn [fold_left concat].
  - rewrite app_nil_r. reflexivity.
  - replace (collector_write (trim_start done) p) with (trim_start (done ++ p)).
    + rewrite IH, app_assoc. reflexivity.
    + unfold collector_write. destruct (trim_start done) as [|c t] eqn:E.
      * rewrite trim_start_app_ws by (apply trim_start_all; exact E). reflexivity.
      * rewrite <- E. apply trim_start_cons_app. congruence.
Qed.

Lemma trim_correct d : fin d = true -> exists out, trim d = Some out /\ is_trimmed (text d) out.
Proof.
  intros Hf. unfold trim. rewrite Hf. eexists; split; [reflexivity|].
  change (@nil N) with (trim_start []). rewrite collector_fold. cbn [app].
  set (s := concat (pieces d)). change (text d) with s.
  destruct (trim_start_spec s) as (a & Ha & Hwa & Hsa).
  destruct (trim_end_spec (trim_start s)) as (b & Hb & Hwb & Heb).
  assert (Hfst : firstn (length (trim_end (trim_start s))) (trim_start s) = trim_end (trim_start s)).
  { rewrite Hb at 2. rewrite firstn_app, firstn_all, Nat.sub_diag. cbn. apply app_nil_r. }
  rewrite Hfst. exists a, b. split; [|split; [exact Hwa|split; [exact Hwb|]]].
  - rewrite <- Hb. exact Ha.
  - destruct Heb as [He|(c & t & He & Hc)]; [left; exact He|]. right. split; [|exists c, t; auto].
    destruct Hsa as [Hs|(c1 & t1 & Hs & Hc1)].
    + rewrite Hs in He. destruct t; discriminate.
    + destruct (trim_end (trim_start s)) as [|y ys] eqn:Ey; [destruct t; discriminate|].
      exists y, ys. split; [reflexivity|]. rewrite Hs in Hb. cbn in Hb. injection Hb as Hb _. congruence.
Qed.

Lemma all_ws_edges_absurd x a s t : all_ws a -> is_whitespace x = false -> a = s ++ x :: t -> False.
Proof.
  intros Ha Hx ->. unfold all_ws in Ha. rewrite Forall_forall in Ha.
  specialize (Ha x). rewrite Ha in Hx; [discriminate|]. apply in_or_app. right. left. reflexivity.
Qed.

(** [is_trimmed] determines the output. *)
Lemma trim_start_unique a out b : all_ws a -> all_ws b -> edges_not_ws out ->
  trim_end (trim_start (a ++ out ++ b)) = out.
Proof.
  intros Ha Hb He. rewrite trim_start_app_ws by exact Ha.
  destruct He as [->|[(c & t & Hc & Hcw) (d & u & Hd & Hdw)]].
  - cbn. unfold all_ws in Hb. assert (trim_start b = []) as ->; [|reflexivity].
    induction Hb as [|x l Hx Hl IH]; cbn; [reflexivity|]. rewrite Hx. exact IH.
  - assert (Hs : trim_start (out ++ b) = out ++ b). { rewrite Hc. cbn. rewrite Hcw. reflexivity. }
    rewrite Hs. unfold trim_end. rewrite rev_app_distr, trim_start_app_ws by (apply Forall_rev; exact Hb).
    rewrite Hd, rev_app_distr. cbn. rewrite Hdw. cbn. rewrite rev_involutive. reflexivity.
Qed.

Lemma is_trimmed_unique s o1 o2 : is_trimmed s o1 -> is_trimmed s o2 -> o1 = o2.
Proof.
  intros (a & b & H1 & Ha & Hb & He) (a' & b' & H2 & Ha' & Hb' & He').
  rewrite <- (trim_start_unique a o1 b), <- H1, H2 by assumption. apply trim_start_unique; assumption.
Qed.

Lemma trim_error d : fin d = false -> trim d = None.
Proof. intros H. unfold trim. rewrite H. reflexivity. Qed.

(** ** truncate *)
Lemma next_boundary_spec cs : forall fuel rem, forallb scalar cs = true ->
  (rem <= length (encode cs))%nat -> (length (encode cs) - rem <= fuel)%nat ->
  exists r a b, next_boundary fuel (encode cs) rem = Some r /\ (rem <= r <= length (encode cs))%nat
    /\ cs = a ++ b /\ r = length (encode a)
    /\ (forall i, (rem <= i < r)%nat -> is_char_boundary (encode cs) i = false).
Proof.
  induction fuel as [|fuel IH]; intros rem Hs Hle Hf; cbn [next_boundary];
    destruct (is_char_boundary (encode cs) rem) eqn:E.
  - destruct (boundary_inv cs rem Hs Hle E) as (a & b & H1 & H2). exists rem, a, b. repeat split; auto; intros; lia.
  - exfalso. assert (rem = length (encode cs)) by lia. subst rem.
    pose proof (boundary_split cs [] eq_refl) as Hb. cbn in Hb. rewrite app_nil_r in Hb. congruence.
  - destruct (boundary_inv cs rem Hs Hle E) as (a & b & H1 & H2). exists rem, a, b. repeat split; auto; intros; lia.
  - assert (Hlt : (rem < length (encode cs))%nat).
    { destruct (Nat.eq_dec rem (length (encode cs))) as [->|]; [|lia].
      pose proof (boundary_split cs [] eq_refl) as Hb. cbn in Hb. rewrite app_nil_r in Hb. congruence. }
    destruct (IH (S rem) Hs ltac:(lia) ltac:(lia)) as (r & a & b & H1 & H2 & H3 & H4 & H5).
    exists r, a, b. repeat split; auto; try lia. intros i Hi.
    destruct (Nat.eq_dec i rem) as [->|]; [exact E|]. apply H5. lia.
Qed.

(** No proper prefix of the characters [cs] reaches [n] bytes. *)
Definition minimal (cs : list N) (n : nat) : Prop :=
  forall k1 k2, cs = k1 ++ k2 -> k2 <> [] -> (length (encode k1) < n)%nat.

Lemma encode_len_pos cs : cs <> [] -> (0 < length (encode cs))%nat.
Proof.
  destruct cs as [|c cs]; [congruence|]. intros _. rewrite encode_cons, app_length.
  pose proof (enc_char_nonnil c). destruct (enc_char c); [congruence|]. cbn. lia.
Qed.

Lemma minimal_fits cs n : (length (encode cs) <= n)%nat -> minimal cs n.
Proof.
  intros H k1 k2 -> Hk. rewrite encode_app, app_length in H. pose proof (encode_len_pos k2 Hk). lia.
Qed.

(** Invariant of the open writer: the characters [done] are all written; either all of them fit in [n] bytes and
    [t_rem] is what is left, or the last one overlapped the limit. *)
Definition open_inv (n : nat) (done : list N) (rem : nat) : Prop :=
  minimal done n /\ ((length (encode done) + rem = n)%nat \/ (rem = 0 /\ n <= length (encode done))%nat).

Lemma app_prefix_cases {A} (a b c d : list A) : a ++ b = c ++ d ->
  (exists e, c = a ++ e /\ b = e ++ d) \/ (exists e, a = c ++ e /\ d = e ++ b).
Proof.
  revert c; induction a as [|x a IH]; intros c H; cbn in H.
  - left. exists c. auto.
  - destruct c as [|y c]; cbn in H.
    + right. exists (x :: a). auto.
    + injection H as -> H. destruct (IH c H) as [(e & -> & ->)|(e & -> & ->)]; [left|right]; exists e; auto.
Qed.

(** A strictly inner character position is a boundary at a byte position strictly inside. *)
Lemma inner_boundary (p k1 k2 : list N) : forallb scalar (k1 ++ k2) = true ->
  p = k1 ++ k2 -> is_char_boundary (encode p) (length (encode k1)) = true.
Proof.
  intros Hs ->. rewrite encode_app. apply boundary_split. rewrite forallb_app in Hs. apply andb_true_iff in Hs. tauto.
Qed.

Lemma minimal_extend n done rem p a b : forallb scalar p = true ->
  minimal done n -> (length (encode done) + rem = n)%nat -> p = a ++ b ->
  (0 < rem)%nat -> (forall i, (rem <= i < length (encode a))%nat -> is_char_boundary (encode p) i = false) ->
  minimal (done ++ a) n.
Proof.
  intros Hp Hm Hr -> Hpos Hb k1 k2 He Hk.
  destruct (app_prefix_cases _ _ _ _ He) as [(e & -> & Ha)|(e & Hd & ->)].
  - rewrite encode_app, app_length.
    destruct (Nat.lt_ge_cases (length (encode e)) rem) as [|Hge]; [lia|]. exfalso.
    assert (Hin : (rem <= length (encode e) < length (encode a))%nat).
    { subst a. rewrite encode_app, app_length. pose proof (encode_len_pos k2 Hk). lia. }
    specialize (Hb _ Hin). rewrite (inner_boundary (a ++ b) e (k2 ++ b)) in Hb; [discriminate| |].
    + rewrite app_assoc, <- Ha. exact Hp.
    + rewrite Ha, <- app_assoc. reflexivity.
  - destruct e as [|x e].
    + cbn in *. rewrite app_nil_r in Hd. subst k1. lia.
    + apply (Hm k1 (x :: e)); [exact Hd|discriminate].
Qed.

Lemma minimal_zero cs : minimal cs 0 -> cs = [].
Proof.
  intros H. destruct cs as [|c cs]; [reflexivity|]. specialize (H [] (c :: cs) eq_refl ltac:(discriminate)). lia.
Qed.

Lemma trunc_closed r ps : trunc_all {| t_open := false; t_rem := r |} ps = Some [].
Proof. induction ps as [|p ps IH]; cbn; [reflexivity|]. rewrite IH. reflexivity. Qed.

Lemma truncated_closed n done extra rest : 
  minimal (done ++ extra) n -> (n <= length (encode (done ++ extra)))%nat -> rest <> [] ->
  is_truncated (done ++ extra ++ rest) n (encode (done ++ extra) ++ lit "...").
Proof.
  intros Hm Hn Hr. exists (done ++ extra), rest. split; [rewrite <- app_assoc; reflexivity|].
  split; [destruct rest; [congruence|reflexivity]|]. split; [auto|]. exact Hm.
Qed.

Lemma trunc_all_correct n pcs : forall done rem,
  Forall (fun cs => forallb scalar cs = true) pcs -> forallb scalar done = true ->
  open_inv n done rem ->
  exists qs, trunc_all {| t_open := true; t_rem := rem |} (map encode pcs) = Some qs
    /\ is_truncated (done ++ concat pcs) n (encode done ++ concat qs).
Proof.
  induction pcs as [|p pcs IH]; intros done rem Hall Hd [Hm Hinv].
  - exists []. split; [reflexivity|]. cbn [concat]. rewrite !app_nil_r.
    exists done, []. split; [rewrite app_nil_r; reflexivity|]. split; [rewrite app_nil_r; reflexivity|].
    split; [congruence|]. exact Hm.
  - inversion Hall as [|? ? Hp Hps]; subst. cbn [map trunc_all]. unfold trunc_write. cbn [t_open t_rem].
    destruct (Nat.leb_spec (length (encode p)) rem) as [Hle|Hgt].
    + cbn [obind fst snd].
      destruct (IH (done ++ p) (rem - length (encode p))%nat) as (qs & Hq & Ht); auto.
      { rewrite forallb_app, Hd, Hp. reflexivity. }
      { split.
        - destruct Hinv as [Hi|[-> Hi]].
          + apply minimal_fits. rewrite encode_app, app_length. lia.
          + assert (p = []) as ->.
            { destruct p as [|c p]; [reflexivity|]. pose proof (encode_len_pos (c :: p) ltac:(discriminate)). lia. }
            rewrite app_nil_r. exact Hm.
        - rewrite encode_app, app_length. lia. }
      rewrite Hq. cbn [obind]. eexists; split; [reflexivity|]. cbn [app concat].
      rewrite encode_app in Ht. rewrite <- !app_assoc in Ht. exact Ht.
    + destruct (Nat.ltb_spec 0 rem) as [Hpos|Hz].
      * destruct Hinv as [Hi|[-> _]]; [|lia].
        destruct (next_boundary_spec p (length (encode p)) rem Hp ltac:(lia) ltac:(lia))
          as (r & a & b & H1 & H2 & H3 & H4 & H5).
        rewrite H1. cbn [obind].
        assert (Hmin : minimal (done ++ a) n) by (eapply minimal_extend; eauto; subst r; exact H5).
        destruct (Nat.eqb_spec r (length (encode p))) as [Hr|Hr].
        -- cbn [obind fst snd].
           assert (b = []) as ->.
           { destruct b as [|c b]; [reflexivity|]. subst p. rewrite encode_app, app_length in Hr.
             pose proof (encode_len_pos (c :: b) ltac:(discriminate)). lia. }
           rewrite app_nil_r in H3. subst a.
           destruct (IH (done ++ p) 0%nat) as (qs & Hq & Ht); auto.
           { rewrite forallb_app, Hd, Hp. reflexivity. }
           { split; [exact Hmin|]. right. rewrite encode_app, app_length. lia. }
           rewrite Hq. cbn [obind]. eexists; split; [reflexivity|]. cbn [app concat].
           rewrite encode_app in Ht. rewrite <- !app_assoc in Ht. exact Ht.
        -- assert (Hb : b <> []). { intros ->. rewrite app_nil_r in H3. subst a. congruence. }
           assert (Hsl : slice (encode p) 0 r = Some (encode a)).
           { subst p r. rewrite encode_app. pose proof (slice_split [] a b) as Hs. cbn [encode flat_map app length Nat.add] in Hs.
             rewrite forallb_app in Hp. apply andb_true_iff in Hp. apply Hs; tauto. }
           rewrite Hsl. cbn [obind fst snd]. rewrite trunc_closed. cbn [obind app concat].
           eexists; split; [reflexivity|]. cbn [concat app]. rewrite app_nil_r.
           subst p. rewrite <- app_assoc.
           replace (encode done ++ encode a ++ lit "...") with (encode (done ++ a) ++ lit "...")
             by (rewrite encode_app, <- app_assoc; reflexivity).
           apply truncated_closed; auto.
           ++ rewrite encode_app, app_length. lia.
           ++ destruct b; [congruence|discriminate].
      * assert (rem = 0)%nat by lia. subst rem. cbn [obind fst snd]. rewrite trunc_closed. cbn [obind app concat].
        eexists; split; [reflexivity|]. cbn [concat app].
        pose proof (truncated_closed n done [] (p ++ concat pcs)) as Ht. rewrite app_nil_r in Ht. apply Ht; auto.
        -- lia.
        -- destruct p; [cbn in Hgt; lia|discriminate].
Qed.

Lemma valid_pieces_chars ps : Forall valid ps ->
  exists pcs, Forall (fun cs => forallb scalar cs = true) pcs /\ ps = map encode pcs.
Proof.
  induction 1 as [|p ps [cs [Hcs ->]] _ [pcs [Hp ->]]].
  - exists []. split; constructor.
  - exists (cs :: pcs). split; [constructor; assumption|reflexivity].
Qed.

Lemma concat_map_encode pcs : concat (map encode pcs) = encode (concat pcs).
Proof. induction pcs as [|p pcs IH]; cbn; [reflexivity|]. rewrite IH, encode_app. reflexivity. Qed.

Lemma truncate_correct d n : Forall valid (pieces d) ->
  exists cs d', truncate_fmt d n = Some d' /\ text d = encode cs /\ forallb scalar cs = true
     /\ is_truncated cs n (text d') /\ fin d' = fin d.
Proof.
  intros Hv. destruct (valid_pieces_chars _ Hv) as (pcs & Hall & Hp).
  destruct (trunc_all_correct n pcs [] n) as (qs & Hq & Ht); auto.
  { split; [|left; reflexivity]. intros k1 k2 Hk Hk2. destruct k1; destruct k2; discriminate || congruence. }
  cbn [app] in Ht. exists (concat pcs). unfold truncate_fmt. rewrite Hp, Hq. cbn [obind].
  eexists. split; [reflexivity|]. unfold text. cbn [pieces fin]. rewrite Hp, concat_map_encode.
  repeat split; auto. apply forallb_forall. intros x Hx. apply in_concat in Hx as (l & Hl & Hxl).
  rewrite Forall_forall in Hall. specialize (Hall l Hl). rewrite forallb_forall in Hall. auto.
Qed.

(** ** indent *)
Lemma indent_loop_spec w : forall s i total, (i + byte_len s = total)%nat ->
  indent_loop total w i s = indent_spec w s.
Proof.
  induction s as [|c s IH]; intros i total Ht; [reflexivity|].
  cbn [indent_loop]. unfold byte_len in Ht. rewrite encode_cons, app_length in Ht.
  rewrite IH by (unfold byte_len, len_utf8; lia).
  destruct s as [|d s].
  - cbn [indent_spec]. cbn in Ht.
    assert (H : Nat.ltb i (total - 1) && (c =? 10) = false).
    { destruct (N.eqb_spec c 10) as [->|]; [|apply andb_false_r]. cbn in Ht. lia. }
    rewrite andb_comm, H. reflexivity.
  - cbn [indent_spec]. destruct (N.eqb_spec c 10) as [->|]; [|reflexivity].
    assert (H : Nat.ltb i (total - 1) = true).
    { pose proof (encode_len_pos (d :: s) ltac:(discriminate)). cbn [enc_char length] in Ht.
      change (length (enc_char 10)) with 1%nat in Ht. lia. }
    rewrite H. reflexivity.
Qed.

Lemma indent_correct s w : w < 10000 -> N.of_nat (byte_len s) < 10000 -> indent s w = indent_spec (N.to_nat w) s.
Proof.
  intros H1 H2. unfold indent, MAX_LEN. replace ((10000 <=? w) || (10000 <=? N.of_nat (byte_len s))) with false by lia.
  apply indent_loop_spec. reflexivity.
Qed.

Lemma indent_limit s w : 10000 <= w \/ 10000 <= N.of_nat (byte_len s) -> indent s w = s.
Proof.
  intros H. unfold indent, MAX_LEN. replace ((10000 <=? w) || (10000 <=? N.of_nat (byte_len s))) with true by lia. reflexivity.
Qed.

(** ** join *)
Lemma join_loop_ok sep items : forall idx, fin sep = true -> Forall (fun d => fin d = true) items ->
  fin (join_loop idx items sep) = true /\
  text (join_loop idx items sep) =
    match idx, items with S _, _ :: _ => text sep ++ intercalate (text sep) (map text items) | _, _ => intercalate (text sep) (map text items) end.
Proof.
  induction items as [|d items IH]; intros idx Hs Hf; [destruct idx; auto|].
  inversion Hf; subst. specialize (IH (S idx) Hs H2). destruct IH as [IH1 IH2]. cbn [join_loop].
  assert (Hpre : fin (match idx with O => {| pieces := []; fin := true |} | S _ => sep end) = true) by (destruct idx; auto).
  rewrite Hpre, H1. split; [exact IH1|]. unfold text in *. cbn [pieces]. rewrite !concat_app, IH2.
  destruct idx; cbn [pieces concat app]; destruct items as [|e items]; cbn [map intercalate]; rewrite ?app_nil_r; reflexivity.
Qed.

Lemma join_correct items sep : fin sep = true -> Forall (fun d => fin d = true) items ->
  text (fst (join_fmt (join items sep))) = intercalate (text sep) (map text items)
  /\ fin (fst (join_fmt (join items sep))) = true.
Proof. intros H1 H2. destruct (join_loop_ok sep items 0 H1 H2) as [A B]. cbn. split; [exact B|exact A]. Qed.

Lemma join_fails sep items : Exists (fun d => fin d = false) items -> forall idx,
  fin (join_loop idx items sep) = false.
Proof.
  induction 1 as [d items H|d items H IH]; intros idx; cbn [join_loop].
  - rewrite H. destruct (fin (match idx with O => _ | S _ => _ end)); reflexivity.
  - destruct (fin (match idx with O => _ | S _ => _ end)); [|reflexivity].
    destruct (fin d); [cbn; apply IH|reflexivity].
Qed.

(** ** line breaks *)
Lemma starts_with_1 x c s : starts_with [x] (c :: s) = (x =? c).
Proof. unfold starts_with. cbn. destruct (x =? c); reflexivity. Qed.

Lemma replace_nl to s : replace [10] to s = flat_map (fun c => if c =? 10 then to else [c]) s.
Proof.
  unfold replace. induction s as [|c s IH]; [reflexivity|]. cbn [replace_from length Nat.sub].
  rewrite starts_with_1. cbn [flat_map]. rewrite (N.eqb_sym 10 c).
  destruct (c =? 10); cbn [app]; rewrite IH; reflexivity.
Qed.

Lemma starts_with_2 x y c s : starts_with [x; y] (c :: s) = (x =? c) && match s with d :: _ => y =? d | [] => false end.
Proof. unfold starts_with. cbn. destruct (x =? c); [|reflexivity]. destruct s as [|d s]; [reflexivity|]. cbn. destruct (y =? d); reflexivity. Qed.

Lemma replace_nlnl_spec n : forall s, (length s <= n)%nat ->
  replace [10] (lit "<br/>") (replace [10; 10] (lit "</p><p>") s) = linebreaks_spec s.
Proof.
  induction n as [|n IH]; intros s Hn.
  - destruct s; [reflexivity|cbn in Hn; lia].
  - rewrite replace_nl. unfold replace. destruct s as [|c s]; [reflexivity|].
    cbn [replace_from]. rewrite starts_with_2. cbn [linebreaks_spec]. rewrite (N.eqb_sym 10 c).
    destruct (c =? 10) eqn:Ec; cbn [andb].
    + destruct s as [|d s].
      * cbn. rewrite Ec. reflexivity.
      * rewrite (N.eqb_sym 10 d). destruct (d =? 10) eqn:Ed.
        -- cbn [length Nat.sub replace_from]. rewrite flat_map_app.
           rewrite <- (IH s) by (cbn in Hn; lia). rewrite replace_nl. reflexivity.
        -- cbn [flat_map]. rewrite Ec. rewrite <- (IH (d :: s)) by (cbn in *; lia). rewrite replace_nl. reflexivity.
    + cbn [flat_map]. rewrite Ec. rewrite <- (IH s) by (cbn in Hn; lia). rewrite replace_nl. reflexivity.
Qed.

Lemma linebreaks_correct s : linebreaks s = lit "<p>" ++ linebreaks_spec s ++ lit "</p>".
Proof. unfold linebreaks. rewrite (replace_nlnl_spec (length s) s) by lia. reflexivity. Qed.

Lemma linebreaksbr_correct s : linebreaksbr s = flat_map (fun c => if c =? 10 then lit "<br/>" else [c]) s.
Proof. apply replace_nl. Qed.

Lemma linebreaks_no_newline s : ~ In 10 (linebreaks s) /\ ~ In 10 (linebreaksbr s).
Proof.
  assert (H : forall t, ~ In 10 (flat_map (fun c => if c =? 10 then lit "<br/>" else [c]) t)).
  { intros t Hin. apply in_flat_map in Hin. destruct Hin as (c & _ & Hc). destruct (N.eqb_spec c 10) as [He|Hne].
    - cbn in Hc. intuition discriminate.
    - destruct Hc as [Hc|[]]. congruence. }
  split.
  - unfold linebreaks. rewrite replace_nl. intros Hin. apply in_app_or in Hin as [Hin|Hin].
    + cbn in Hin. intuition discriminate.
    + apply in_app_or in Hin as [Hin|Hin]; [apply (H _ Hin)|cbn in Hin; intuition discriminate].
  - rewrite linebreaksbr_correct. apply H.
Qed.

(** ** wordcount *)
Lemma split_ws_count s : forall cur,
  length (split_whitespace_from cur s) =
  (match cur with [] => word_starts true s | _ => 1 + word_starts false s end)%nat.
Proof.
  induction s as [|c s IH]; intros cur; cbn [split_whitespace_from word_starts].
  - destruct cur; reflexivity.
  - destruct (is_whitespace c) eqn:E.
    + destruct cur; cbn [length]; rewrite IH; reflexivity.
    + rewrite IH. destruct cur as [|x cur]; cbn; reflexivity.
Qed.

Lemma wordcount_correct s : wordcount s = word_starts true s.
Proof. apply split_ws_count. Qed.

(** ** center *)
Lemma center_correct s w : w < 10000 ->
  exists l r, center s w = repeat 32 l ++ s ++ repeat 32 r /\ (l + r = N.to_nat w - length s)%nat /\ (l <= r <= S l)%nat.
Proof.
  intros H. unfold center, MAX_LEN. replace (w <? 10000) with true by lia.
  eexists; eexists; split; [reflexivity|]. set (t := (N.to_nat w - length s)%nat). clearbody t. lia.
Qed.

(** ** urlencode *)
Lemma hex_roundtrip n : n < 16 -> hex_val (hex_digit n) = Some n.
Proof.
  intros H. assert (Hin : In n (map N.of_nat (seq 0 16))).
  { apply in_map_iff. exists (N.to_nat n). split; [lia|]. apply in_seq. lia. }
  cbn in Hin. repeat (destruct Hin as [<-|Hin]; [reflexivity|]). destruct Hin.
Qed.

Lemma percent_decode_byte set b rest : b < 256 -> set 37 = true ->
  percent_decode (percent_byte set b ++ rest) = b :: percent_decode rest.
Proof.
  intros Hb Hset. unfold percent_byte. destruct ((128 <=? b) || set b) eqn:E; cbn [app percent_decode].
  - rewrite N.eqb_refl, !hex_roundtrip by lia. f_equal. lia.
  - destruct (N.eqb_spec b 37) as [->|]; [rewrite Hset in E; discriminate|]. reflexivity.
Qed.

Lemma percent_roundtrip set s : Forall (fun b => b < 256) s -> set 37 = true ->
  percent_decode (percent_encode set s) = s.
Proof.
  intros H Hset. unfold percent_encode. induction H as [|b s Hb Hs IH]; [reflexivity|].
  cbn [flat_map]. rewrite percent_decode_byte by assumption. f_equal. exact IH.
Qed.

Lemma concat_map_flat_map {A B} (f : A -> list B) (l : list (list A)) : concat (map (flat_map f) l) = flat_map f (concat l).
Proof. induction l as [|x l IH]; cbn; [reflexivity|]. rewrite IH, flat_map_app. reflexivity. Qed.

Lemma urlencode_text set d : text (urlencode_fmt set d) = percent_encode set (text d).
Proof. unfold text, urlencode_fmt. cbn. apply concat_map_flat_map. Qed.

Lemma strict_set b : URLENCODE_STRICT_SET b = (b <? 128) && negb (unreserved b).
Proof. unfold URLENCODE_STRICT_SET, remove, NON_ALPHANUMERIC, unreserved, is_alnum. lia. Qed.
Lemma nonstrict_set b : URLENCODE_SET b = (b <? 128) && negb (unreserved b || (b =? 47)).
Proof. unfold URLENCODE_SET. unfold remove at 1. rewrite strict_set, !negb_orb, !andb_assoc. reflexivity. Qed.

(** Every output character is allowed, and a percent sign is always followed by two hexadecimal digits. *)
Inductive url_safe (ok : N -> bool) : str -> Prop :=
| us_nil : url_safe ok []
| us_chr c s : ok c = true -> url_safe ok s -> url_safe ok (c :: s)
| us_esc h l s : hex_val h <> None -> hex_val l <> None -> url_safe ok s -> url_safe ok (37 :: h :: l :: s).

Lemma percent_safe set ok s : (forall b, b < 128 -> set b = false -> ok b = true) -> Forall (fun b => b < 256) s ->
  url_safe ok (percent_encode set s).
Proof.
  intros Hok H. induction H as [|b s Hb Hs IH]; [constructor|].
  unfold percent_encode in *. cbn [flat_map]. unfold percent_byte at 1. destruct ((128 <=? b) || set b) eqn:E; cbn [app].
  - apply us_esc; [rewrite hex_roundtrip by lia; discriminate|rewrite hex_roundtrip by lia; discriminate|exact IH].
  - apply us_chr; [|exact IH]. apply Hok; [lia|]. destruct (set b); [rewrite orb_true_r in E; discriminate|reflexivity].
Qed.

Lemma urlencode_strict_correct d : Forall (fun b => b < 256) (text d) ->
  url_safe unreserved (text (urlencode_strict d)) /\ percent_decode (text (urlencode_strict d)) = text d
  /\ fin (urlencode_strict d) = fin d.
Proof.
  intros H. unfold urlencode_strict. rewrite urlencode_text. repeat split.
  - apply percent_safe; [|exact H]. intros b Hb Hs. rewrite strict_set in Hs. destruct (unreserved b); [reflexivity|]. lia.
  - apply percent_roundtrip; [exact H|reflexivity].
Qed.
Lemma urlencode_correct d : Forall (fun b => b < 256) (text d) ->
  url_safe (fun c => unreserved c || (c =? 47)) (text (urlencode d)) /\ percent_decode (text (urlencode d)) = text d
  /\ fin (urlencode d) = fin d.
Proof.
  intros H. unfold urlencode. rewrite urlencode_text. repeat split.
  - apply percent_safe; [|exact H]. intros b Hb Hs. rewrite nonstrict_set in Hs. destruct (unreserved b || (b =? 47)); [reflexivity|]. lia.
  - apply percent_roundtrip; [exact H|reflexivity].
Qed.

(** ** json *)
Definition json_rep (b : N) : str := match json_escape b with Some e => e | None => [b] end.

Lemma bslice_split (a b c : str) : bslice (a ++ b ++ c) (length a) (length a + length b) = Some b.
Proof.
  unfold bslice. rewrite !app_length.
  replace (Nat.leb (length a) (length a + length b) && Nat.leb (length a + length b) (length a + (length b + length c))) with true by lia.
  f_equal. replace (length a + length b - length a)%nat with (length b) by lia.
  rewrite skipn_app, skipn_all, Nat.sub_diag. cbn. rewrite firstn_app, firstn_all, Nat.sub_diag. cbn. apply app_nil_r.
Qed.

(** The loop, with the slices it writes. *)
Lemma json_loop_correct rest : forall written pend,
  Forall (fun b => json_escape b = None) pend ->
  exists ps, json_loop (written ++ pend ++ rest) rest (length written + length pend) (length written) = Some ps
    /\ concat ps = pend ++ flat_map json_rep rest.
Proof.
  induction rest as [|b rest IH]; intros written pend Hp; cbn [json_loop].
  - pose proof (bslice_split written pend []) as Hs. rewrite app_nil_r in *. rewrite app_length, Hs. cbn.
    exists [pend]. split; [reflexivity|]. cbn. rewrite app_nil_r. reflexivity.
  - destruct (json_escape b) as [e|] eqn:Ee.
    + rewrite bslice_split. cbn [obind].
      destruct (IH (written ++ pend ++ [b]) []) as (ps & H1 & H2); [constructor|].
      replace ((written ++ pend ++ [b]) ++ [] ++ rest) with (written ++ pend ++ b :: rest) in H1
        by (rewrite <- !app_assoc; reflexivity).
      rewrite !app_length in H1. cbn [length] in H1.
      replace (length written + (length pend + 1) + 0)%nat with (S (length written + length pend)) in H1 by lia.
      replace (length written + (length pend + 1))%nat with (length written + length pend + 1)%nat in H1 by lia.
      rewrite H1. cbn [obind]. eexists; split; [reflexivity|]. cbn [concat flat_map]. rewrite H2.
      unfold json_rep at 2. rewrite Ee. reflexivity.
    + destruct (IH written (pend ++ [b])) as (ps & H1 & H2).
      { apply Forall_app; split; [exact Hp|]. repeat constructor. exact Ee. }
      rewrite app_length in H1. cbn [length] in H1. rewrite <- !app_assoc in H1. cbn [app] in H1.
      replace (length written + (length pend + 1))%nat with (S (length written + length pend)) in H1 by lia.
      exists ps. split; [exact H1|]. rewrite H2, <- app_assoc. cbn [flat_map]. unfold json_rep at 2. rewrite Ee. reflexivity.
Qed.

Lemma json_write_correct s : exists ps, json_write s = Some ps /\ concat ps = flat_map json_rep s.
Proof. destruct (json_loop_correct s [] []) as (ps & H1 & H2); [constructor|]. exists ps. auto. Qed.

Lemma json_pieces_correct ps : exists qs, escape_pieces json_write ps = Some qs /\ concat qs = flat_map json_rep (concat ps).
Proof.
  induction ps as [|p ps (qs & H1 & H2)]; [exists []; auto|].
  destruct (json_write_correct p) as (a & Ha & Hca). cbn. rewrite Ha. cbn. rewrite H1. cbn.
  exists (a ++ qs). split; [reflexivity|]. rewrite concat_app, Hca, H2, flat_map_app. reflexivity.
Qed.

Lemma json_text d : exists d', json_fmt d = Some d' /\ text d' = flat_map json_rep (text d) /\ fin d' = fin d.
Proof.
  unfold json_fmt. destruct (json_pieces_correct (pieces d)) as (qs & H1 & H2). rewrite H1. cbn.
  eexists; split; [reflexivity|]. cbn. auto.
Qed.

Lemma json_rep_safe b x : In x (json_rep b) -> x <> 38 /\ x <> 39 /\ x <> 60 /\ x <> 62.
Proof.
  unfold json_rep, json_escape.
  destruct (b =? 38) eqn:?; [intros H; cbn in H; intuition subst; discriminate|].
  destruct (b =? 39) eqn:?; [intros H; cbn in H; intuition subst; discriminate|].
  destruct (b =? 60) eqn:?; [intros H; cbn in H; intuition subst; discriminate|].
  destruct (b =? 62) eqn:?; [intros H; cbn in H; intuition subst; discriminate|].
  intros [H|[]]. subst. lia.
Qed.

Lemma json_safe d : exists d', json_fmt d = Some d' /\
  forall x, In x (text d') -> x <> 38 /\ x <> 39 /\ x <> 60 /\ x <> 62.
Proof.
  destruct (json_text d) as (d' & H1 & H2 & _). exists d'. split; [exact H1|]. rewrite H2.
  intros x Hx. apply in_flat_map in Hx as (b & _ & Hb). eapply json_rep_safe; eauto.
Qed.

(** Decoding. *)
Definition four (c : N) : bool := (c =? 38) || (c =? 39) || (c =? 60) || (c =? 62).
Lemma json_rep_plain c : four c = false -> json_rep c = [c].
Proof.
  unfold four, json_rep, json_escape. intros H.
  destruct (c =? 38); [discriminate|]. destruct (c =? 39); [discriminate|].
  destruct (c =? 60); [discriminate|]. destruct (c =? 62); [discriminate|]. reflexivity.
Qed.
Lemma four_cases c : four c = true -> c = 38 \/ c = 39 \/ c = 60 \/ c = 62.
Proof. unfold four. lia. Qed.
Lemma json_decode_keep k s : json_decode_from 0 k s = json_decode_from 0 true s.
Proof. destruct s; reflexivity. Qed.
Lemma json_decode_four c rest : four c = true ->
  json_decode_from 0 true (json_rep c ++ rest) = c :: json_decode_from 0 true rest.
Proof.
  intros H. rewrite <- (json_decode_keep false rest).
  apply four_cases in H. destruct H as [-> | [-> | [-> | ->]]]; reflexivity.
Qed.
Lemma starts_with_cons x p c s : starts_with (x :: p) (c :: s) = (x =? c) && starts_with p s.
Proof. unfold starts_with. cbn. destruct (x =? c); reflexivity. Qed.

Lemma starts_with_rep p : forallb (fun x => negb (x =? 92) && negb (four x)) p = true -> forall s,
  starts_with p (flat_map json_rep s) = starts_with p s.
Proof.
  induction p as [|x p IH]; intros Hp s; [reflexivity|].
  cbn in Hp. apply andb_true_iff in Hp as [Hx Hp]. apply andb_true_iff in Hx as [Hx Hf].
  destruct s as [|c s]; [reflexivity|]. cbn [flat_map].
  destruct (four c) eqn:E.
  - rewrite starts_with_cons.
    replace (x =? c) with false.
    + apply four_cases in E. destruct E as [-> | [-> | [-> | ->]]]; cbn [json_rep json_escape N.eqb Pos.eqb app];
        rewrite starts_with_cons; (destruct (x =? 92); [discriminate|reflexivity]).
    + destruct (N.eqb_spec x c) as [->|]; [|reflexivity]. rewrite E in Hf. discriminate.
  - rewrite json_rep_plain by exact E. cbn [app]. rewrite !starts_with_cons, IH by exact Hp. reflexivity.
Qed.

Lemma json_u_rep s : json_u (flat_map json_rep s) = json_u s.
Proof. unfold json_u. rewrite !starts_with_rep by reflexivity. reflexivity. Qed.

Lemma json_u_inv s v : json_u s = Some v -> exists a b r, s = lit "u00" ++ [a; b] ++ r
  /\ four a = false /\ four b = false /\ a <> 92 /\ b <> 92.
Proof.
  unfold json_u. intros H.
  destruct (starts_with (lit "u0026") s) eqn:E1; [|destruct (starts_with (lit "u0027") s) eqn:E2;
    [|destruct (starts_with (lit "u003c") s) eqn:E3; [|destruct (starts_with (lit "u003e") s) eqn:E4; [|discriminate]]]];
  match goal with E : starts_with _ s = true |- _ => apply starts_with_iff in E; destruct E as [r ->] end;
  eexists; eexists; exists r; (split; [reflexivity|]); repeat split; try reflexivity; discriminate.
Qed.

Lemma json_decode_rep s : forall skip keep, forallb (fun c => negb (four c)) (firstn skip s) = true ->
  well_escaped false (skipn skip s) = true ->
  json_decode_from skip keep (flat_map json_rep s) = json_decode_from skip keep s.
Proof.
  induction s as [|c s IH]; intros skip keep Hpl Hw; [reflexivity|].
  destruct skip as [|k].
  - rewrite !(json_decode_keep keep). clear Hpl. cbn [skipn well_escaped] in Hw. cbn [flat_map].
    destruct (four c) eqn:E.
    + rewrite json_decode_four by exact E. cbn [json_decode_from].
      assert (c =? 92 = false) as Hc by (apply four_cases in E; lia). rewrite Hc in *.
      f_equal. apply IH; auto.
    + rewrite json_rep_plain by exact E. cbn [app json_decode_from].
      destruct (c =? 92) eqn:Ec; [|f_equal; apply IH; auto].
      rewrite json_u_rep. destruct (json_u s) as [v|] eqn:Eu.
      * f_equal. destruct (json_u_inv _ _ Eu) as (a & b & r & -> & Ha & Hb & Hna & Hnb).
        apply IH.
        -- cbn. rewrite Ha, Hb. reflexivity.
        -- cbn [lit app skipn]. cbn in Hw.
           destruct (N.eqb_spec a 92); [congruence|]. destruct (N.eqb_spec b 92); [congruence|]. exact Hw.
      * f_equal. destruct s as [|d s]; [reflexivity|]. cbn [well_escaped] in Hw.
        apply andb_true_iff in Hw as [H1 H2]. apply IH; [|exact H2].
        cbn [firstn forallb]. unfold four. rewrite H1. reflexivity.
  - cbn [firstn forallb skipn] in *. apply andb_true_iff in Hpl as [H1 H2].
    cbn [flat_map]. rewrite json_rep_plain by (destruct (four c); [discriminate|reflexivity]).
    cbn [app json_decode_from]. f_equal. apply IH; assumption.
Qed.

Lemma json_denotes d : well_escaped false (text d) = true ->
  exists d', json_fmt d = Some d' /\ json_decode (text d') = json_decode (text d) /\ fin d' = fin d.
Proof.
  intros H. destruct (json_text d) as (d' & H1 & H2 & H3). exists d'. repeat split; auto.
  rewrite H2. apply json_decode_rep; [reflexivity|exact H].
Qed.

Lemma json_decode_id s : (forall a b, s = a ++ 92 :: b -> json_u b = None) -> forall skip, json_decode_from skip true s = s.
Proof.
  induction s as [|c s IH]; intros H skip; [reflexivity|].
  assert (IH' : forall skip, json_decode_from skip true s = s).
  { apply IH. intros a b ->. apply (H (c :: a) b). reflexivity. }
  cbn [json_decode_from]. destruct skip; [|cbn; rewrite IH'; reflexivity].
  destruct (N.eqb_spec c 92) as [->|].
  - rewrite (H [] s) by reflexivity. rewrite IH'. reflexivity.
  - rewrite IH'. reflexivity.
Qed.

Lemma json_lossless d : well_escaped false (text d) = true -> (forall a b, text d = a ++ 92 :: b -> json_u b = None) ->
  exists d', json_fmt d = Some d' /\ json_decode (text d') = text d /\ fin d' = fin d.
Proof.
  intros H1 H2. destruct (json_denotes d H1) as (d' & A & B & C). exists d'. repeat split; auto.
  rewrite B. apply json_decode_id. exact H2.
Qed.

(** Validity of the unchecked slices. *)
Lemma encode_ascii_cut cs : forall a x b, forallb scalar cs = true -> encode cs = a ++ x :: b -> x < 128 ->
  valid a /\ valid b.
Proof.
  induction cs as [|c cs IH]; intros a x b Hs He Hx.
  - destruct a; discriminate.
  - cbn in Hs. apply andb_true_iff in Hs as [Hc Hs]. rewrite encode_cons in He.
    destruct (enc_char_shape c Hc) as (y & tl & E & H1 & H2 & H3 & H4). rewrite E in He.
    destruct a as [|a0 a].
    + cbn in He. injection He as -> He. destruct (N.lt_ge_cases c 128) as [Hlt|Hge].
      * destruct (H3 Hlt) as [_ ->]. cbn in He. subst b. split; [apply valid_nil|]. exists cs. auto.
      * destruct (H4 Hge). lia.
    + cbn in He. injection He as -> He.
      destruct (app_prefix_cases _ _ _ _ He) as [(e & -> & He2)|(e & -> & He2)].
      * destruct (IH e x b Hs He2 Hx) as [Va Vb]. split; [|exact Vb].
        change (a0 :: tl ++ e) with ((a0 :: tl) ++ e). rewrite <- E. apply valid_app; [|exact Va].
        exists [c]. cbn. rewrite Hc, app_nil_r. auto.
      * destruct e as [|z e].
        -- cbn in He2. destruct (IH [] x b Hs (eq_sym He2) Hx) as [_ Vb]. split; [|exact Vb].
           rewrite app_nil_r in E. rewrite <- E. exists [c]. cbn. rewrite Hc, app_nil_r. auto.
        -- cbn in He2. injection He2 as -> He2. rewrite Forall_app in H2. destruct H2 as [_ H2]. inversion H2; subst.
           unfold not_cont in *. lia.
Qed.

Lemma valid_ascii_cut a x b : valid (a ++ x :: b) -> x < 128 -> valid a /\ valid b.
Proof. intros [cs [H1 H2]] Hx. eapply encode_ascii_cut; eauto. Qed.

Lemma json_escape_ascii b e : json_escape b = Some e -> b < 128 /\ valid e.
Proof.
  unfold json_escape. intros H.
  destruct (N.eqb_spec b 38) as [->|]; [injection H as <-; split; [lia|apply valid_ascii; reflexivity]|].
  destruct (N.eqb_spec b 39) as [->|]; [injection H as <-; split; [lia|apply valid_ascii; reflexivity]|].
  destruct (N.eqb_spec b 60) as [->|]; [injection H as <-; split; [lia|apply valid_ascii; reflexivity]|].
  destruct (N.eqb_spec b 62) as [->|]; [injection H as <-; split; [lia|apply valid_ascii; reflexivity]|].
  discriminate.
Qed.

Lemma json_loop_valid rest : forall written pend ps,
  json_loop (written ++ pend ++ rest) rest (length written + length pend) (length written) = Some ps ->
  valid (pend ++ rest) -> Forall valid ps.
Proof.
  induction rest as [|b rest IH]; intros written pend ps H Hv; cbn [json_loop] in H.
  - pose proof (bslice_split written pend []) as Hs. rewrite app_nil_r in *. rewrite app_length, Hs in H. cbn in H.
    injection H as <-. repeat constructor. exact Hv.
  - destruct (json_escape b) as [e|] eqn:Ee.
    + rewrite bslice_split in H. cbn [obind] in H.
      destruct (json_escape_ascii _ _ Ee) as [Hb He].
      destruct (valid_ascii_cut _ _ _ Hv Hb) as [Vp Vr].
      destruct (json_loop _ rest _ _) as [r|] eqn:Er; [|discriminate]. cbn in H. injection H as <-.
      constructor; [exact Vp|]. constructor; [exact He|].
      apply (IH (written ++ pend ++ [b]) []); [|exact Vr].
      rewrite <- Er. cbn [app]. rewrite !app_length, <- !app_assoc. cbn [app length].
      f_equal; lia.
    + apply (IH written (pend ++ [b])); [|rewrite <- app_assoc; exact Hv].
      rewrite <- H, app_length, <- !app_assoc. cbn [app length]. f_equal. lia.
Qed.

Lemma json_pieces_valid ps : forall qs, escape_pieces json_write ps = Some qs -> Forall valid ps -> Forall valid qs.
Proof.
  induction ps as [|p ps IH]; intros qs H Hv; cbn in H; [injection H as <-; constructor|].
  inversion Hv; subst. destruct (json_write p) as [a|] eqn:Ea; [|discriminate]. cbn in H.
  destruct (escape_pieces json_write ps) as [r|] eqn:Er; [|discriminate]. cbn in H. injection H as <-.
  apply Forall_app. split; [|apply IH; auto]. apply (json_loop_valid p [] [] a Ea). assumption.
Qed.

Lemma json_valid d d' : Forall valid (pieces d) -> json_fmt d = Some d' -> Forall valid (pieces d').
Proof.
  intros Hv H. unfold json_fmt in H. destruct (escape_pieces json_write (pieces d)) as [qs|] eqn:E; [|discriminate].
  cbn in H. injection H as <-. eapply json_pieces_valid; eauto.
Qed.

(** ** paragraphbreaks *)
Lemma paragraphs_nonnil s : paragraphs s <> [].
Proof.
  remember (length s) as n eqn:Hn. assert (Hle : (length s <= n)%nat) by lia. clear Hn. revert s Hle.
  induction n as [|n IH]; intros s Hle.
  - destruct s; [discriminate|cbn in Hle; lia].
  - destruct s as [|c s]; [discriminate|]. cbn in Hle.
    assert (H : paragraphs s <> []) by (apply IH; lia).
    cbn [paragraphs]. destruct (c =? 10); [destruct s as [|d s]; [|destruct (d =? 10)]|]; try discriminate;
      destruct (paragraphs _); congruence.
Qed.

Lemma intercalate_cons_hd sep c p ps : intercalate sep ((c :: p) :: ps) = c :: intercalate sep (p :: ps).
Proof. destruct ps; reflexivity. Qed.

Lemma replace_paragraphs n : forall s, (length s <= n)%nat ->
  replace [10; 10] (lit "</p><p>") s = intercalate (lit "</p><p>") (paragraphs s).
Proof.
  unfold replace. induction n as [|n IH]; intros s Hle; (destruct s as [|c s]; [reflexivity|]); cbn in Hle; [lia|].
  cbn [replace_from]. rewrite starts_with_2. cbn [paragraphs]. rewrite (N.eqb_sym 10 c).
  assert (Hs : c :: replace_from [10; 10] (lit "</p><p>") 0 s =
     intercalate (lit "</p><p>") match paragraphs s with p :: ps => (c :: p) :: ps | [] => [] end).
  { rewrite (IH s) by lia. pose proof (paragraphs_nonnil s). destruct (paragraphs s) as [|p ps]; [congruence|].
    rewrite intercalate_cons_hd. reflexivity. }
  destruct (c =? 10); cbn [andb]; [|exact Hs].
  destruct s as [|d s]; [exact Hs|]. rewrite (N.eqb_sym 10 d). destruct (d =? 10); [|exact Hs].
  cbn [length Nat.sub replace_from]. rewrite (IH s) by (cbn in Hle; lia).
  pose proof (paragraphs_nonnil s). destruct (paragraphs s) as [|p ps]; [congruence|]. reflexivity.
Qed.

Lemma paragraphs_join n : forall s, (length s <= n)%nat -> intercalate [10; 10] (paragraphs s) = s.
Proof.
  induction n as [|n IH]; intros s Hle; (destruct s as [|c s]; [reflexivity|]); cbn in Hle; [lia|].
  assert (G : intercalate [10; 10] match paragraphs s with p :: ps => (c :: p) :: ps | [] => [] end = c :: s).
  { pose proof (paragraphs_nonnil s). pose proof (IH s ltac:(lia)) as E. destruct (paragraphs s) as [|p ps]; [congruence|].
    rewrite intercalate_cons_hd. f_equal. exact E. }
  cbn [paragraphs]. destruct (N.eqb_spec c 10) as [->|]; [|exact G]. destruct s as [|d s]; [exact G|].
  destruct (N.eqb_spec d 10) as [->|]; [|exact G].
  pose proof (paragraphs_nonnil s). pose proof (IH s ltac:(cbn in Hle; lia)) as E. destruct (paragraphs s) as [|p ps]; [congruence|].
  cbn [intercalate app]. do 2 f_equal. exact E.
Qed.

Notation PP := (lit "<p></p>").
(** No paragraph has an empty paragraph tag in it, and none is made where two of them meet. *)
Fixpoint unlike (ps : list str) : Prop :=
  match ps with
  | [] => True
  | p :: ps' => ~ has PP p /\ unlike ps' /\
      match ps' with [] => True | q :: _ => (forall a, p <> a ++ lit "<p>") /\ (forall b, q <> lit "</p>" ++ b) end
  end.
Lemma has_app_l w p r : has w p -> has w (p ++ r).
Proof. intros (a & b & ->). exists a, (b ++ r). rewrite <- !app_assoc. reflexivity. Qed.
Lemma has_app_r w p r : has w r -> has w (p ++ r).
Proof. intros (a & b & ->). exists (p ++ a), b. rewrite <- !app_assoc. reflexivity. Qed.
Lemma unlike_of ps : let s := intercalate [10; 10] ps in
  ~ has PP s -> ~ has (lit "<p>" ++ [10; 10]) s -> ~ has ([10; 10] ++ lit "</p>") s -> unlike ps.
Proof.
  induction ps as [|p ps IH]; cbn zeta; intros H1 H2 H3; [exact Logic.I|].
  destruct ps as [|q ps]; [repeat split; exact H1|].
  change (intercalate [10; 10] (p :: q :: ps)) with (p ++ [10; 10] ++ intercalate [10; 10] (q :: ps)) in *.
  set (r := intercalate [10; 10] (q :: ps)) in *.
  assert (Hr : exists r', r = q ++ r') by (subst r; destruct ps; [exists []; symmetry; apply app_nil_r|eexists; reflexivity]).
  destruct Hr as (r' & Er).
  split; [intros H; apply H1, has_app_l, H|]. split.
  - apply IH; intros H; [apply H1|apply H2|apply H3]; do 2 apply has_app_r; exact H.
  - split.
    + intros a ->. apply H2. exists a, r. rewrite <- !app_assoc. reflexivity.
    + intros b ->. apply H3. exists p, (b ++ r'). rewrite Er, <- !app_assoc. reflexivity.
Qed.

(** A check for [has], for the examples *)
Fixpoint hasb (w s : str) : bool := starts_with w s || match s with [] => false | _ :: s' => hasb w s' end.
Lemma hasb_false w s : hasb w s = false -> ~ has w s.
Proof.
  intros H (a & b & ->). revert H. induction a as [|x a IH]; intros H.
  - cbn [app] in H. assert (E : starts_with w (w ++ b) = true) by (apply starts_with_iff; eexists; reflexivity).
    destruct (w ++ b); cbn [hasb] in H; rewrite E in H; discriminate.
  - cbn [app hasb] in H. apply orb_false_iff in H as [_ H]. exact (IH H).
Qed.

(** What may follow a paragraph *)
Definition follows (p r : str) : Prop := r = [] \/ exists x, r = lit "</p>" ++ x /\ forall a, p <> a ++ lit "<p>".
Lemma follows_tl c p r : follows (c :: p) r -> follows p r.
Proof. intros [H|(x & H & Ha)]; [left; exact H|right]. exists x. split; [exact H|]. intros a ->. exact (Ha (c :: a) eq_refl). Qed.
Lemma sw_para c p r : ~ has PP (c :: p) -> follows (c :: p) r -> starts_with PP ((c :: p) ++ r) = false.
Proof.
  intros Hh Hf. destruct (starts_with PP ((c :: p) ++ r)) eqn:E; [exfalso|reflexivity].
  apply starts_with_iff in E as (x & E).
  destruct (app_prefix_cases _ _ _ _ E) as [(e & E1 & E2)|(e & E1 & E2)].
  - destruct e as [|z e].
    + apply Hh. exists [], []. cbn [app]. rewrite !app_nil_r in *. symmetry. exact E1.
    + assert (z = 60) as ->.
      { destruct Hf as [->|(y & -> & _)]; [discriminate|]. injection E2 as E2 _. symmetry. exact E2. }
      assert (c :: p = lit "<p>") as E3.
      { cbn in E1. do 7 (destruct p as [|?d p]; [injection E1; intros; subst; try discriminate; reflexivity|]).
        exfalso. apply (f_equal (@length N)) in E1. cbn in E1. lia. }
      destruct Hf as [->|(y & _ & Ha)]; [discriminate|]. exact (Ha [] E3).
  - apply Hh. exists [], e. exact E1.
Qed.
Lemma rep_para p : forall r, ~ has PP p -> follows p r -> replace_from PP [] 0 (p ++ r) = p ++ replace_from PP [] 0 r.
Proof.
  induction p as [|c p IH]; intros r Hh Hf; [reflexivity|].
  transitivity (if starts_with PP ((c :: p) ++ r) then [] ++ replace_from PP [] (length PP - 1) (p ++ r)
     else c :: replace_from PP [] 0 (p ++ r)); [reflexivity|].
  rewrite sw_para by assumption. cbn [app]. f_equal. apply IH; [|exact (follows_tl _ _ _ Hf)].
  intros H. apply Hh. apply (has_app_r PP [c] p H).
Qed.
Lemma rep_close r : replace_from PP [] 0 (lit "</p>" ++ r) = lit "</p>" ++ replace_from PP [] 0 r.
Proof. reflexivity. Qed.
Lemma rep_empty r : replace_from PP [] 0 (lit "<p></p>" ++ r) = replace_from PP [] 0 r.
Proof. reflexivity. Qed.
Lemma rep_open x : starts_with (lit "</p>") x = false -> replace_from PP [] 0 (lit "<p>" ++ x) = lit "<p>" ++ replace_from PP [] 0 x.
Proof.
  intros H. change (lit "<p>" ++ x) with (60 :: 112 :: 62 :: x).
  transitivity (if starts_with (lit "</p>") x then [] ++ replace_from PP [] (length PP - 1) (112 :: 62 :: x)
     else 60 :: replace_from PP [] 0 (112 :: 62 :: x)); [reflexivity|].
  rewrite H. reflexivity.
Qed.
Lemma sw_close c q r : (forall b, c :: q <> lit "</p>" ++ b) -> (r = [] \/ exists x, r = lit "</p>" ++ x) ->
  starts_with (lit "</p>") ((c :: q) ++ r) = false.
Proof.
  intros Hb Hr. destruct (starts_with (lit "</p>") ((c :: q) ++ r)) eqn:E; [exfalso|reflexivity].
  apply starts_with_iff in E as (x & E).
  destruct (app_prefix_cases _ _ _ _ E) as [(e & E1 & E2)|(e & E1 & E2)].
  - destruct e as [|z e].
    + apply (Hb []). rewrite !app_nil_r in *. symmetry. exact E1.
    + assert (z = 60) as ->.
      { destruct Hr as [->|(y & ->)]; [discriminate|]. injection E2 as E2 _. symmetry. exact E2. }
      cbn in E1. do 4 (destruct q as [|?d q]; [injection E1; intros; discriminate|]).
      apply (f_equal (@length N)) in E1. cbn in E1. lia.
  - exact (Hb e E1).
Qed.

Lemma rep_tail ps : forall p, unlike (p :: ps) -> (forall b, p <> lit "</p>" ++ b) ->
  replace_from PP [] 0 (lit "<p>" ++ intercalate (lit "</p><p>") (p :: ps)) = lit "<p>" ++ intercalate (lit "</p><p>") (drop_inner (p :: ps)).
Proof.
  induction ps as [|q ps IH]; intros p (Hp & Hq & Hpq) Hb.
  - cbn [intercalate drop_inner]. destruct p as [|c p]; [reflexivity|].
    pose proof (rep_para (c :: p) [] Hp (or_introl eq_refl)) as Hr. pose proof (sw_close c p [] Hb (or_introl eq_refl)) as Hs.
    rewrite app_nil_r in Hr, Hs. rewrite rep_open by exact Hs. rewrite Hr. cbn [replace_from]. rewrite app_nil_r. reflexivity.
  - destruct Hpq as [Ha Hqb].
    change (intercalate (lit "</p><p>") (p :: q :: ps)) with (p ++ lit "</p>" ++ lit "<p>" ++ intercalate (lit "</p><p>") (q :: ps)).
    destruct p as [|c p].
    + change (lit "<p>" ++ [] ++ lit "</p>" ++ ?r) with (PP ++ r).
      change (drop_inner ([] :: q :: ps)) with (drop_inner (q :: ps)). rewrite <- IH by assumption. apply rep_empty.
    + rewrite rep_open by (apply sw_close; [exact Hb|right; eexists; reflexivity]).
      rewrite rep_para; [|exact Hp|right; eexists; split; [reflexivity|exact Ha]].
      rewrite rep_close. rewrite IH by assumption.
      change (drop_inner ((c :: p) :: q :: ps)) with ((c :: p) :: drop_inner (q :: ps)).
      assert (Hne : drop_inner (q :: ps) <> []).
      { clear. revert q. induction ps as [|x ps IH]; intros q; [discriminate|]. cbn. destruct q; [apply IH|discriminate]. }
      destruct (drop_inner (q :: ps)); [congruence|]. reflexivity.
Qed.

Lemma paragraphbreaks_correct s : ~ has PP s -> ~ has (lit "<p>" ++ [10; 10]) s -> ~ has ([10; 10] ++ lit "</p>") s ->
  paragraphbreaks s = as_paragraphs (drop_empty_inner (paragraphs s)).
Proof.
  intros H1 H2 H3. unfold paragraphbreaks, as_paragraphs. rewrite (replace_paragraphs (length s)) by lia.
  pose proof (paragraphs_join (length s) s ltac:(lia)) as Hj.
  pose proof (unlike_of (paragraphs s)) as Hu. cbn zeta in Hu. rewrite Hj in Hu. specialize (Hu H1 H2 H3).
  pose proof (paragraphs_nonnil s) as Hne. clear Hj.
  destruct (paragraphs s) as [|p ps]; [congruence|]. destruct Hu as (Hp & Hps & Hpq).
  do 2 f_equal. cbn [drop_empty_inner]. unfold replace. destruct ps as [|q ps].
  - pose proof (rep_para p [] Hp (or_introl eq_refl)) as Hr. rewrite app_nil_r in Hr. cbn [replace_from] in Hr. rewrite app_nil_r in Hr. exact Hr.
  - destruct Hpq as [Ha Hqb].
    change (intercalate (lit "</p><p>") (p :: q :: ps)) with (p ++ lit "</p>" ++ lit "<p>" ++ intercalate (lit "</p><p>") (q :: ps)).
    rewrite rep_para; [|exact Hp|right; eexists; split; [reflexivity|exact Ha]].
    rewrite rep_close, rep_tail by assumption.
    assert (Hne2 : drop_inner (q :: ps) <> []).
    { clear. revert q. induction ps as [|x ps IH]; intros q; [discriminate|]. cbn. destruct q; [apply IH|discriminate]. }
    destruct (drop_inner (q :: ps)); [congruence|]. reflexivity.
Qed.

(** ** capitalize, title *)
Lemma capitalize_correct up low c cs : scalar c = true -> forallb scalar cs = true ->
  capitalize up low (c :: cs) = Some (encode (up c) ++ low (encode cs)).
Proof.
  intros Hc Hs. unfold capitalize.
  pose proof (slice_split [c] cs [] Hs eq_refl) as Hsl. cbn [encode flat_map] in Hsl. fold (encode cs) in Hsl.
  rewrite !app_nil_r in Hsl. rewrite encode_cons, app_length, Hsl. reflexivity.
Qed.

Section Title.
  Variables (up low : N -> str) (isu isl : N -> bool).
  Notation up' c := (if isu c then [c] else up c).
  Notation low' c := (if isl c then [c] else low c).
  Lemma title_ws n lead rest : all_ws lead -> lead <> [] -> title_loop up low isu isl n (lead ++ rest) = lead ++ title_loop up low isu isl true rest.
  Proof.
    intros H Hne. destruct H as [|c l Hc Hl]; [congruence|]. cbn. rewrite Hc. f_equal. clear Hne Hc.
    induction Hl as [|d l Hd Hl IH]; [reflexivity|]. cbn. rewrite Hd, IH. reflexivity.
  Qed.
  Lemma title_word word rest : Forall (fun c => is_whitespace c = false) word ->
    title_loop up low isu isl false (word ++ rest) = flat_map (fun c => low' c) word ++ title_loop up low isu isl false rest.
  Proof. induction 1 as [|c w Hc Hw IH]; [reflexivity|]. cbn. rewrite Hc, IH, app_assoc. reflexivity. Qed.
  Lemma title_correct lead first word rest : all_ws lead -> is_whitespace first = false ->
    Forall (fun c => is_whitespace c = false) word ->
    (rest = [] \/ exists c r, rest = c :: r /\ is_whitespace c = true) ->
    title up low isu isl (lead ++ first :: word ++ rest) = lead ++ up' first ++ flat_map (fun c => low' c) word ++ title up low isu isl rest.
  Proof.
    intros Hl Hf Hw Hr. unfold title.
    assert (H : title_loop up low isu isl true (first :: word ++ rest) = up' first ++ flat_map (fun c => low' c) word ++ title_loop up low isu isl true rest).
    { cbn. rewrite Hf, title_word by exact Hw. do 2 f_equal. destruct Hr as [->|(c & r & -> & Hc)]; [reflexivity|]. cbn. rewrite Hc. reflexivity. }
    destruct lead as [|l lead]; [exact H|]. rewrite title_ws, H by (exact Hl || discriminate). reflexivity.
  Qed.
  Lemma title_blank lead : all_ws lead -> title up low isu isl lead = lead.
  Proof. intros H. destruct lead as [|c l]; [reflexivity|]. pose proof (title_ws true (c :: l) [] H ltac:(discriminate)) as E. rewrite !app_nil_r in E. exact E. Qed.
End Title.
