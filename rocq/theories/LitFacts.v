(** * The literals the lexer accepts. *)
From Verif Require Import Base Nom Ws Lex NomFacts LexFacts LitSpec.
From Coq Require Import ZifyBool ZifyNat ZifyN.
Local Open Scope N_scope.

Lemma digit_of_iff radix c : In radix [2; 8; 10; 16] -> is_digit radix c = true -> digit_of radix c.
Proof. cbn [In]. intros H. unfold is_digit, digit_of, is_dec. intuition; subst radix; cbn [N.eqb Pos.eqb] in *; lia. Qed.
Lemma digit_us_iff radix c : In radix [2; 8; 10; 16] -> (c =? 95) || is_digit radix c = true -> digit_or_us radix c.
Proof. intros H E. apply orb_true_iff in E. destruct E as [E|E]; [left; lia|right; now apply digit_of_iff]. Qed.

Lemma recog_sep_digits_true : recog_id (separated_digits 10 true) dec_literal.
Proof.
  unfold separated_digits. apply recog_recognize. eapply recog_weaken.
  - apply recog_bind; [apply recog_ret|]. intros _. apply recog_bind; [apply recog_satisfy|]. intros _.
    apply recog_many0_chars, recog_satisfy.
  - intros s (a & b & -> & Ha & c & d & -> & (x & -> & Hx) & Hd). unfold lstr in Ha. subst a. exists x, d.
    split; [reflexivity|]. split; [apply digit_of_iff; cbn; auto|]. eapply Forall_impl; [|exact Hd].
    intros y. apply digit_us_iff; cbn; auto.
Qed.
Lemma recog_sep_digits_false radix : In radix [2; 8; 10; 16] -> recog_id (separated_digits radix false) (digits_literal radix).
Proof.
  intros HR. unfold separated_digits. apply recog_recognize. eapply recog_weaken.
  - apply recog_bind; [apply recog_many0_chars, recog_satisfy|]. intros _. apply recog_bind; [apply recog_satisfy|]. intros _.
    apply recog_many0_chars, recog_satisfy.
  - intros s (a & b & -> & Ha & c & d & -> & (x & -> & Hx) & Hd). split.
    + apply Forall_app. split.
      * eapply Forall_impl; [|exact Ha]. intros y Hy. left. cbn beta in Hy. lia.
      * cbn. constructor; [right; now apply digit_of_iff|]. eapply Forall_impl; [|exact Hd]. intros y. now apply digit_us_iff.
    + apply Exists_app. right. cbn. constructor. now apply digit_of_iff.
Qed.
Lemma recog_int_suffix : recog integer_suffix (fun s => In s int_suffixes).
Proof.
  unfold integer_suffix. eapply recog_weaken; [repeat (apply recog_or; [apply recog_tag|]); apply recog_tag|].
  intros s. unfold lalt, lstr, int_suffixes. cbn [In]. intuition.
Qed.
Lemma recog_float_suffix : recog float_suffix (fun s => In s float_suffixes).
Proof.
  unfold float_suffix. eapply recog_weaken; [apply recog_or; apply recog_tag|]. intros s. unfold lalt, lstr, float_suffixes. cbn [In]. intuition.
Qed.

Lemma radix_part c radix : In radix [2; 8; 10; 16] ->
  recog (recognize (pchar c ;;; separated_digits radix false)) (fun s => exists t, s = c :: t /\ digits_literal radix t).
Proof.
  intros HR. apply recog_of_id, recog_recognize. eapply recog_weaken.
  - apply recog_bind; [apply recog_satisfy|]. intros _. apply recog_of_id, recog_sep_digits_false, HR.
  - intros s (a & b & -> & (x & -> & Hx) & Hb). apply N.eqb_eq in Hx. subst x. exists b. auto.
Qed.
Lemma in_opt (L : list str) s : lopt (fun s => In s L) s -> In s ([] :: L).
Proof. intros [H|H]; cbn; auto. Qed.

Theorem num_lit_valid i r s : num_lit i = POk r s -> i = s ++ r /\ signed_number s.
Proof.
  revert i r s. change (recog_id num_lit signed_number). unfold num_lit. apply recog_recognize. eapply recog_weaken.
  - apply recog_bind; [apply recog_opt, recog_satisfy|]. intros _.
    apply recog_or with (L1 := rust_number) (L2 := rust_number); apply recog_of_id, recog_recognize.
    + eapply recog_weaken.
      * apply recog_bind; [apply recog_satisfy|]. intros _. apply recog_bind.
        -- apply recog_or; [apply radix_part; cbn; auto|apply recog_or; apply radix_part; cbn; auto].
        -- intros _. apply recog_opt, recog_int_suffix.
      * intros s (a & b & -> & (x & -> & Hx) & p & q & -> & Hp & Hq). apply N.eqb_eq in Hx. subst x. apply in_opt in Hq.
        destruct Hp as [(t & -> & Ht)|[(t & -> & Ht)|(t & -> & Ht)]].
        -- apply (rn_radix (lit "0b") 2 t q); cbn; auto.
        -- apply (rn_radix (lit "0o") 8 t q); cbn; auto.
        -- apply (rn_radix (lit "0x") 16 t q); cbn; auto.
    + eapply recog_weaken.
      * apply recog_bind; [apply recog_of_id, recog_sep_digits_true|]. intros _. apply recog_opt.
        apply recog_or; [apply recog_int_suffix|]. apply recog_or; [apply recog_float_suffix|]. apply recog_or; apply recog_of_id, recog_recognize.
        -- apply recog_bind; [apply recog_opt, recog_bind; [apply recog_satisfy|intros _; apply recog_of_id, recog_sep_digits_true]|]. intros _.
           apply recog_bind; [apply recog_satisfy|]. intros _. apply recog_bind; [apply recog_opt, recog_satisfy|]. intros _.
           apply recog_bind; [apply recog_of_id, (recog_sep_digits_false 10); cbn; auto|]. intros _. apply recog_opt, recog_float_suffix.
        -- apply recog_bind; [apply recog_satisfy|]. intros _. apply recog_bind; [apply recog_of_id, recog_sep_digits_true|]. intros _.
           apply recog_opt, recog_float_suffix.
      * intros s (a & b & -> & Ha & [->|Hb]); [rewrite <- (app_nil_r a), <- app_assoc; apply (rn_int a ([] ++ [])); cbn; auto|].
        destruct Hb as [Hb|[Hb|[Hb|Hb]]].
        -- apply rn_int; auto. apply in_cons, in_or_app. auto.
        -- apply rn_int; auto. apply in_cons, in_or_app. auto.
        -- destruct Hb as (fr & t & -> & Hfr & e & t2 & -> & (x & -> & Hx) & sg & t3 & -> & Hsg & d & sf & -> & Hd & Hsf).
           apply in_opt in Hsf. apply (rn_exp a fr [x] sg d sf); auto.
           ++ destruct Hfr as [->|(p & q & -> & (y & -> & Hy) & Hq)]; [now left|right]. apply N.eqb_eq in Hy. subst y. exists q. auto.
           ++ apply mem_chr_In in Hx. cbn in Hx |- *. intuition congruence.
           ++ destruct Hsg as [->|(y & -> & Hy)]; cbn; auto. apply mem_chr_In in Hy. cbn in Hy. intuition congruence.
        -- destruct Hb as (p & q & -> & (y & -> & Hy) & d & sf & -> & Hd & Hsf). apply N.eqb_eq in Hy. subst y. apply in_opt in Hsf.
           apply (rn_frac a d sf); auto.
  - intros s (a & b & -> & [->|(x & -> & Hx)] & Hb); unfold lalt in Hb.
    + left. intuition.
    + apply N.eqb_eq in Hx. subst x. right. exists b. intuition.
Qed.

Lemma escaped_quoted q f i r : q <> 92 -> escaped_from q f i = Some r ->
  exists s, i = s ++ r /\ quoted q s /\ (r = [] \/ exists r', r = q :: r').
Proof.
  intros Hq. assert (H : forall n i f r, (length i <= n)%nat -> escaped_from q f i = Some r ->
    exists s, i = s ++ r /\ quoted q s /\ (r = [] \/ exists r', r = q :: r')).
  { clear i f r. induction n as [|n IH]; intros [|c i] f r Hn; cbn [escaped_from length] in *; try lia;
      try (intros [= <-]; exists []; repeat split; auto using qt_nil; fail).
    destruct (N.eqb_spec c 92) as [->|H92].
    - destruct i as [|x i]; try discriminate. cbn in Hn. intros H. apply IH in H; [|lia]. destruct H as (s & -> & Hs & Hr).
      exists (92 :: x :: s). repeat split; auto using qt_esc.
    - destruct (N.eqb_spec c q) as [->|Hcq].
      + destruct f; try discriminate. intros [= <-]. exists []. repeat split; auto using qt_nil. eauto.
      + intros H. apply IH in H; [|lia]. destruct H as (s & -> & Hs & Hr). exists (c :: s). repeat split; auto using qt_plain. }
  intros E. eapply H; eauto.
Qed.
Lemma opt_escaped q i r o : q <> 92 -> opt (escaped q) i = POk r o ->
  exists s, i = s ++ r /\ quoted q s /\ match o with Some t => t = s | None => s = [] end.
Proof.
  intros Hq. unfold opt, escaped. destruct (escaped_from q true i) as [r1|] eqn:E.
  - intros [= <- <-]. destruct (escaped_quoted _ _ _ _ Hq E) as (s & -> & Hs & _). exists s. rewrite before_app. auto.
  - intros [= <- <-]. exists []. repeat split. constructor.
Qed.
Lemma pchar_inv c i r a : pchar c i = POk r a -> i = c :: r.
Proof. unfold pchar, satisfy. destruct i as [|x i]; try discriminate. destruct (N.eqb_spec c x) as [->|]; try discriminate. congruence. Qed.
Lemma pbind_inv {A B} (p : P A) (k : A -> P B) i r b : pbind p k i = POk r b -> exists r1 a, p i = POk r1 a /\ k a r1 = POk r b.
Proof. unfold pbind. destruct (p i) as [r1 a|e m|e m|]; try discriminate. eauto. Qed.
Lemma pmap_inv {A B} (f : A -> B) (p : P A) i r b : pmap f p i = POk r b -> exists a, p i = POk r a /\ b = f a.
Proof. unfold pmap. destruct (p i) as [r1 a|e m|e m|]; try discriminate. intros [= <- <-]. eauto. Qed.

Theorem str_lit_valid i r s : str_lit i = POk r s -> i = 34 :: s ++ 34 :: r /\ quoted 34 s.
Proof.
  unfold str_lit. intros H. apply pbind_inv in H. destruct H as (r1 & a & H1 & H). apply pchar_inv in H1. subst i.
  apply pbind_inv in H. destruct H as (r2 & o & H2 & H). apply opt_escaped in H2; [|lia]. destruct H2 as (t & -> & Ht & Ho).
  apply pbind_inv in H. destruct H as (r3 & b & H3 & H). apply pchar_inv in H3. subst r2. injection H as <- <-.
  destruct o as [u|]; subst; auto.
Qed.

Lemma filter_len_le {A} (f : A -> bool) l : (length (filter f l) <= length l)%nat.
Proof. induction l as [|x l IH]; cbn; auto. destruct (f x); cbn; lia. Qed.
Lemma hex_digit_spec c : is_hex c = true -> digit_of 16 c /\ c <> 95.
Proof. intros H. split; [apply digit_of_iff; cbn; auto|]. unfold is_hex, is_digit, is_dec in H. cbn in H. lia. Qed.
Lemma hex_digit_val c : is_hex c = true -> hex_digit c = if c <? 58 then c - 48 else if c <? 71 then c - 55 else c - 87.
Proof.
  unfold is_hex, is_digit, is_dec, hex_digit, is_dec. cbn [N.eqb Pos.eqb]. intros H.
  destruct ((48 <=? c) && (c <=? 57)) eqn:E1; destruct (c <? 58) eqn:E2; destruct (c <? 71) eqn:E3; destruct (c <=? 70) eqn:E4; lia.
Qed.
Lemma from_hex_value h acc : Forall (fun c => is_hex c = true) h -> fold_left (fun acc c => acc * 16 + hex_digit c) h acc = hex_value acc h.
Proof.
  intros H. revert acc. induction H as [|c h Hc Hh IH]; intros acc; cbn [fold_left hex_value]; auto. rewrite IH. f_equal.
  pose proof (hex_digit_spec c Hc) as [_ H95]. rewrite (hex_digit_val c Hc). destruct (N.eqb_spec c 95); [congruence|]. lia.
Qed.
Lemma span_max_spec n f i : Forall (fun c => f c = true) (fst (span_max n f i)) /\ (length (fst (span_max n f i)) <= n)%nat.
Proof.
  revert i; induction n as [|n IH]; intros [|c i]; cbn; try (split; [constructor|lia]). destruct (f c) eqn:E; cbn; [|split; [constructor|lia]].
  specialize (IH i). destruct (span_max n f i); cbn in *. destruct IH. split; [constructor; auto|lia].
Qed.
Lemma take_while_inv m n f i r a : take_while_m_n m n f i = POk r a ->
  i = a ++ r /\ Forall (fun c => f c = true) a /\ (m <= length a <= n)%nat.
Proof.
  unfold take_while_m_n. pose proof (span_max_app n f i) as H. pose proof (span_max_spec n f i) as H2.
  destruct (span_max n f i) as [b q]; cbn [fst snd] in *. destruct (Nat.ltb_spec (length b) m); try discriminate. intros [= <- <-].
  intuition lia.
Qed.
Lemma por_inv {A} (p q : P A) i r a : (p <|> q) i = POk r a -> p i = POk r a \/ q i = POk r a.
Proof. unfold por. destruct (p i); auto. Qed.
Lemma tag_inv t i r a : tag t i = POk r a -> i = t ++ r /\ a = t.
Proof. unfold tag. destruct (strip_prefix t i) eqn:E; try discriminate. intros [= <- <-]. apply strip_prefix_Some in E. auto. Qed.

Lemma char_parse_shape s k : char_parse s = POk [] k ->
  (exists c, s = [c]) \/
  match k with
  | CLiteral => False
  | CEscaped => exists c, In c [110; 114; 116; 92; 48; 39; 34] /\ s = [92; c]
  | CAscii nb => exists a b, nb = [a; b] /\ is_hex a = true /\ is_hex b = true /\ s = [92; 120; a; b]
  | CUnicode nb => Forall (fun c => is_hex c = true) nb /\ (1 <= length nb <= 6)%nat /\ s = 92 :: 117 :: 123 :: nb ++ [125]
  end.
Proof.
  intros H. destruct s as [|x [|y s]]; [discriminate|eauto|]. right. unfold char_parse in H.
  apply pbind_inv in H. destruct H as (r1 & a & H1 & H). apply pchar_inv in H1. injection H1 as -> <-.
  repeat (apply por_inv in H; destruct H as [H|H]);
    try (apply pmap_inv in H; destruct H as (z & H & ->); apply pchar_inv in H; injection H as -> ->; eexists; split; [|reflexivity]; cbn; auto 10).
  - apply pbind_inv in H. destruct H as (r2 & b & H2 & H). apply pchar_inv in H2. injection H2 as -> <-.
    apply pmap_inv in H. destruct H as (z & H & ->). apply take_while_inv in H. destruct H as (-> & Hf & Hl).
    destruct z as [|p [|q [|? z]]]; cbn in Hl; try lia. inversion Hf as [|? ? Hp Hf']; subst. inversion Hf' as [|? ? Hq _]; subst.
    exists p, q. auto.
  - apply pbind_inv in H. destruct H as (r2 & b & H2 & H). apply tag_inv in H2. destruct H2 as [H2 ->].
    apply pbind_inv in H. destruct H as (r3 & z & H3 & H). apply take_while_inv in H3. destruct H3 as (-> & Hf & Hl).
    apply pbind_inv in H. destruct H as (r4 & b & H4 & H). apply pchar_inv in H4. subst r3. injection H as -> <-.
    rewrite H2. cbn. auto.
Qed.

Theorem char_lit_valid i r s : char_lit i = POk r s -> i = 39 :: s ++ 39 :: r /\ char_accepted s.
Proof.
  unfold char_lit. destruct ((pchar 39 ;;; _) i) as [r0 o|e m|e m|] eqn:E; try discriminate.
  apply pbind_inv in E. destruct E as (r1 & a & H1 & H). apply pchar_inv in H1. subst i.
  apply pbind_inv in H. destruct H as (r2 & o2 & H2 & H). apply opt_escaped in H2; [|lia]. destruct H2 as (t & -> & Ht & Ho).
  apply pbind_inv in H. destruct H as (r3 & b & H3 & H). apply pchar_inv in H3. subst r2. injection H as <- <-.
  destruct o2 as [u|]; try discriminate. subst u. destruct (char_parse t) as [[|x rr] k|e m|e m|] eqn:E; try discriminate.
  intros H. apply char_parse_shape in E. destruct E as [[c ->]|E].
  - assert (Hs : s = [c] /\ r = r3) by (destruct k; try (destruct (_ <? _); try discriminate); injection H; auto). destruct Hs as [-> ->].
    split; [reflexivity|]. unfold char_accepted, rust_char.
    assert (Hc : c <> 39 /\ c <> 92) by (inversion Ht; auto). destruct Hc as [Hc1 Hc2]. cbn [In].
    destruct (N.eq_dec c 9) as [->|]; [right; left; cbn; auto|]. destruct (N.eq_dec c 10) as [->|]; [right; left; cbn; auto|]. destruct (N.eq_dec c 13) as [->|]; [right; left; cbn; auto|].
    left. left. exists c. split; auto. intuition.
  - destruct k as [| |nb|nb]; [contradiction| | |].
    + injection H as <- <-. split; [reflexivity|]. destruct E as (c & Hc & ->). left. right. now constructor.
    + destruct E as (p & q & -> & Hp & Hq & ->). destruct (127 <? from_hex [p; q]) eqn:E; try discriminate. injection H as <- <-.
      split; [reflexivity|]. left. right.
      pose proof (hex_digit_spec p Hp) as [Dp _]. pose proof (hex_digit_spec q Hq) as [Dq _].
      apply re_ascii; [|exact Dq]. unfold from_hex in E. cbn [fold_left] in E.
      rewrite !hex_digit_val in E by auto. unfold digit_of in Dp, Dq.
      destruct (p <? 58) eqn:E1; destruct (p <? 71) eqn:E2; lia.
    + destruct E as (Hf & Hl & ->). destruct (1114111 <? from_hex nb) eqn:E; try discriminate. injection H as <- <-.
      split; [reflexivity|]. unfold from_hex in E. rewrite from_hex_value in E by auto.
      assert (HD : Forall (digit_of 16) nb) by (eapply Forall_impl; [|exact Hf]; intros c Hc; apply hex_digit_spec; auto).
      destruct (N.leb_spec 55296 (hex_value 0 nb)) as [E1|E1]; [destruct (N.leb_spec (hex_value 0 nb) 57343) as [E2|E2]|].
      * right. right. exists nb. repeat split; auto.
      * left. right. destruct nb as [|h nb]; cbn in Hl; [lia|]. inversion HD; subst. apply re_unicode; auto; try lia.
        -- eapply Forall_impl; [|eassumption]. intros c Hc. now right.
        -- etransitivity; [apply filter_len_le|]. cbn. lia.
      * left. right. destruct nb as [|h nb]; cbn in Hl; [lia|]. inversion HD; subst. apply re_unicode; auto; try lia.
        -- eapply Forall_impl; [|eassumption]. intros c Hc. now right.
        -- etransitivity; [apply filter_len_le|]. cbn. lia.
Qed.

Lemma bad_escape_not_rust : ~ rust_string [92; 113].
Proof.
  intros H. inversion H as [|c s Hc Hs|s Hs|s Hs|e s He Hs E]; subst.
  - apply Hc. cbn. auto.
  - inversion He as [c Hc|a b Ha Hb|h t Hh Ht Hl Hv Hn]; subst; cbn in E; try discriminate.
    injection E as -> _. cbn in Hc. intuition discriminate.
Qed.
