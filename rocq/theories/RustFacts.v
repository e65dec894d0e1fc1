(** * Dividing the generated text into tokens. *)
From Verif Require Import Base Ws Ast LitSpec RustText ParseSpec TreeSpec Ident IdentFacts GenExpr Heritage Gen GenText RustSpec LexFacts.
From Coq Require Import Lia ZArith ZifyBool ZifyNat ZifyN.
Local Open Scope N_scope.
Set Default Proof Using "Type".

(** ** Without the section variables *)
Lemma between_spec a b c : between_b a b c = true <-> a <= c <= b.
Proof. unfold between_b. lia. Qed.
Lemma hex_b_digit c : digit_of 16 c -> hex_b c = true.
Proof. unfold digit_of, hex_b, digit_b, between_b. change (N.min 16 10) with 10. change (16 - 10) with 6. lia. Qed.
Lemma digit_16 c : hex_b c = true <-> digit_of 16 c.
Proof. unfold digit_of, hex_b, digit_b, between_b. change (N.min 16 10) with 10. change (16 - 10) with 6. lia. Qed.
Definition plain_chr (c : N) : bool := between_b 65 90 c || between_b 97 122 c || (c =? 95) || digit_b c.
Definition num_chr (c : N) : bool := plain_chr c || existsb (N.eqb c) [46; 43; 45].
Lemma digits_num radix c : 10 <= radix <= 16 \/ radix <= 10 -> digit_or_us radix c -> num_chr c = true.
Proof.
  intros R [->|H]; [reflexivity|]. unfold digit_of in H. unfold num_chr, plain_chr, digit_b, between_b.
  destruct H as [H|[H1 H2]]; lia.
Qed.
Definition all_num (s : str) : Prop := Forall (fun c => num_chr c = true) s.
Lemma all_num_app a b : all_num a -> all_num b -> all_num (a ++ b).
Proof. intros A B. apply Forall_app. split; assumption. Qed.
Lemma all_num_in (l : list str) : forallb (fun s => forallb num_chr s) l = true -> forall s, In s l -> all_num s.
Proof. intros H s Hs. rewrite forallb_forall in H. specialize (H s Hs). rewrite forallb_forall in H. apply Forall_forall. exact H. Qed.
Lemma all_num_digits radix s : 10 <= radix <= 16 \/ radix <= 10 -> Forall (digit_or_us radix) s -> all_num s.
Proof. intros R H. eapply Forall_impl; [|exact H]. intros c. apply digits_num, R. Qed.
Lemma all_num_dec s : dec_literal s -> all_num s.
Proof. intros (c & t & -> & H1 & H2). constructor; [apply (digits_num 10); [lia|right; exact H1]|]. apply (all_num_digits 10); [lia|exact H2]. Qed.
Lemma number_chars s : rust_number s -> all_num s.
Proof.
  intros H. destruct H as [s suf H1 H2|p radix s suf H1 [H2 _] H3|a b suf H1 H2 H3|a fr e sign x suf H1 H2 H3 H4 [H5 _] H6].
  - apply all_num_app; [apply all_num_dec, H1|]. eapply all_num_in; [|exact H2]. vm_compute. reflexivity.
  - apply all_num_app; [|apply all_num_app].
    + destruct H1 as [E|[E|[E|[]]]]; injection E as <- <-; repeat constructor.
    + apply (all_num_digits radix); [|exact H2]. destruct H1 as [E|[E|[E|[]]]]; injection E as <- <-; lia.
    + eapply all_num_in; [|exact H3]. vm_compute. reflexivity.
  - apply all_num_app; [apply all_num_dec, H1|]. apply all_num_app; [repeat constructor|]. apply all_num_app; [apply all_num_dec, H2|].
    eapply all_num_in; [|exact H3]. vm_compute. reflexivity.
  - apply all_num_app; [apply all_num_dec, H1|]. apply all_num_app; [|apply all_num_app; [|apply all_num_app; [|apply all_num_app]]].
    + destruct H2 as [->|(b & -> & H2)]; [constructor|]. apply all_num_app; [repeat constructor|apply all_num_dec, H2].
    + eapply all_num_in; [|exact H3]. vm_compute. reflexivity.
    + eapply all_num_in; [|exact H4]. vm_compute. reflexivity.
    + apply (all_num_digits 10); [lia|exact H5].
    + eapply all_num_in; [|exact H6]. vm_compute. reflexivity.
Qed.
Lemma signed_chars s : signed_number s -> all_num s.
Proof. intros [H|(t & -> & H)]; [apply number_chars, H|]. constructor; [reflexivity|apply number_chars, H]. Qed.
Lemma number_first s : rust_number s -> exists c t, s = c :: t /\ 48 <= c <= 57.
Proof.
  assert (D : forall a r, dec_literal a -> exists c t, a ++ r = c :: t /\ 48 <= c <= 57).
  { intros a r (c & t & -> & H & _). exists c, (t ++ r). split; [reflexivity|]. unfold digit_of in H. change (N.min 10 10) with 10 in H. lia. }
  intros H. destruct H as [s suf H1 H2|p radix s suf H1 [H2 _] H3|a b suf H1 H2 H3|a fr e sign x suf H1 H2 H3 H4 [H5 _] H6]; try (apply D; assumption).
  destruct H1 as [E|[E|[E|[]]]]; injection E as <- <-; exists 48; eexists; (split; [reflexivity|lia]).
Qed.
Lemma keyword_first : forallb (fun k => match k with c :: _ => between_b 97 122 c | [] => false end) rust_keywords = true.
Proof. vm_compute. reflexivity. Qed.
Lemma signed_not_keyword s : signed_number s -> ~ In s rust_keywords.
Proof.
  intros H K. pose proof keyword_first as F. rewrite forallb_forall in F. specialize (F s K).
  destruct H as [H|(t & -> & H)].
  - destruct (number_first _ H) as (c & t & -> & L). apply between_spec in F. lia.
  - apply between_spec in F. lia.
Qed.
Lemma keyword_raw : forallb (fun k => str_eqb k (lit "crate") || negb (mem_str k not_raw)) rust_keywords = true.
Proof. vm_compute. reflexivity. Qed.

(** ** Debug formatting gives valid string literals *)
Lemma hex_digit_ok n : n < 16 -> digit_of 16 (hex_digit n) /\ hex_digit n <> 95 /\
  (if hex_digit n <? 58 then hex_digit n - 48 else if hex_digit n <? 71 then hex_digit n - 55 else hex_digit n - 87) = n.
Proof.
  intros H. unfold hex_digit, digit_of. change (N.min 16 10) with 10. change (16 - 10) with 6.
  destruct (n <? 10) eqn:E.
  - split; [lia|]. split; [lia|]. replace (48 + n <? 58) with true by lia. lia.
  - split; [lia|]. split; [lia|]. replace (87 + n <? 58) with false by lia. replace (87 + n <? 71) with false by lia. lia.
Qed.
Lemma hex_value_snoc a : forall acc d, d <> 95 ->
  hex_value acc (a ++ [d]) = 16 * hex_value acc a + (if d <? 58 then d - 48 else if d <? 71 then d - 55 else d - 87).
Proof.
  induction a as [|c a IH]; intros acc d Hd; [|cbn [app hex_value]; apply IH, Hd].
  cbn [app hex_value]. replace (d =? 95) with false by lia. reflexivity.
Qed.
Definition hexes (s : str) : Prop := Forall (fun c => digit_of 16 c /\ c <> 95) s.
Lemma to_hex_ok : forall f n, n < 16 ^ N.of_nat f -> (0 < f)%nat ->
  to_hex f n <> [] /\ hexes (to_hex f n) /\ (length (to_hex f n) <= f)%nat /\ hex_value 0 (to_hex f n) = n.
Proof.
  induction f as [|f IH]; intros n Hn Hf; [lia|]. cbn [to_hex]. destruct (n <? 16) eqn:E.
  - destruct (hex_digit_ok n ltac:(lia)) as (A & B & C). split; [discriminate|]. split; [constructor; [split; assumption|constructor]|].
    split; [cbn; lia|]. cbn [hex_value]. replace (hex_digit n =? 95) with false by lia. rewrite C. lia.
  - assert (F : (0 < f)%nat). { destruct f; [change (16 ^ N.of_nat 1) with 16 in Hn; lia|lia]. }
    assert (Q : n / 16 < 16 ^ N.of_nat f).
    { apply N.div_lt_upper_bound; [lia|]. replace (N.of_nat (S f)) with (N.succ (N.of_nat f)) in Hn by lia. rewrite N.pow_succ_r' in Hn. exact Hn. }
    destruct (IH (n / 16) Q F) as (A & B & C & D). destruct (hex_digit_ok (n mod 16) (N.mod_lt n 16 ltac:(lia))) as (A' & B' & C').
    split; [destruct (to_hex f (n / 16)); discriminate|]. split; [apply Forall_app; split; [exact B|constructor; [split; assumption|constructor]]|].
    split; [rewrite app_length; cbn [length]; lia|]. rewrite hex_value_snoc by exact B'. rewrite D, C'. rewrite (N.div_mod n 16) at 3 by lia. lia.
Qed.
Lemma hexes_filter s : hexes s -> filter (fun c => negb (c =? 95)) s = s.
Proof. induction 1 as [|c s [_ H] _ IH]; [reflexivity|]. cbn [filter]. replace (c =? 95) with false by lia. cbn [negb]. rewrite IH. reflexivity. Qed.
Lemma debug_char_ok plain c s : rust_string s -> rust_string (debug_char plain c ++ s).
Proof.
  intros H. unfold debug_char.
  repeat (match goal with |- context[if ?b then lit _ else _] => destruct b eqn:? end; [apply rs_esc; [apply re_simple; vm_compute; tauto|exact H]|]).
  assert (N34 : c <> 34) by lia. assert (N92 : c <> 92) by lia. assert (N13 : c <> 13) by lia.
  destruct (plain c || negb (scalar c)) eqn:E; [apply rs_plain; [cbn; lia|exact H]|].
  assert (S : scalar c = true) by (destruct (scalar c); [reflexivity|rewrite Bool.orb_true_r in E; discriminate E]).
  unfold scalar in S. destruct (to_hex_ok 6 c) as (A & B & C & D); [change (16 ^ N.of_nat 6) with 16777216; lia|lia|].
  destruct (to_hex 6 c) as [|h t] eqn:X; [contradiction|]. apply (rs_esc (92 :: 117 :: 123 :: h :: t ++ [125])); [|exact H].
  inversion B as [|? ? [B1 B2] B3]. apply re_unicode.
  - exact B1.
  - eapply Forall_impl; [|exact B3]. intros y [Hy _]. right. exact Hy.
  - rewrite hexes_filter by exact B. exact C.
  - rewrite D. lia.
  - rewrite D. unfold between_b in S. lia.
Qed.
Lemma debug_chars_ok plain s : rust_string (concat (map (debug_char plain) s)).
Proof. induction s as [|c s IH]; [constructor|]. cbn [map concat]. apply debug_char_ok, IH. Qed.

Section Facts.
  Variables xs xc : N -> bool.
  Notation run := (RustText.run xs xc).
  Notation step := (RustText.step xs xc).
  Notation wchar := (RustText.word_char xs xc).
  Lemma run_app a : forall q b, run q (a ++ b) = match run q a with Some q' => run q' b | None => None end.
  Proof. induction a as [|c a IH]; intros q b; [reflexivity|]. cbn [app RustText.run]. destruct (step q c); [apply IH|reflexivity]. Qed.
  (** [a] is read between tokens; afterwards a token may end. *)
  Definition Goes (st : list N) (a : str) (st' : list N) : Prop := exists m, run (MTop, st) a = Some (m, st') /\ ready m = true.
  Definition Ends (st : list N) (a : str) (st' : list N) : Prop := run (MTop, st) a = Some (MTop, st').
  (** The text cannot be read as a continuation of what is before it. *)
  Definition sep (b : str) : bool := match b with c :: _ => negb (wchar c) && negb (existsb (N.eqb c) [34; 39; 35]) | [] => false end.
  Lemma step_ready m st c : ready m = true -> wchar c = false -> existsb (N.eqb c) [34; 39; 35] = false -> step (m, st) c = fresh xs st c.
  Proof.
    intros R W Q. destruct m; try discriminate R; cbn [RustText.step fst snd]; [reflexivity| |].
    - rewrite W. unfold after_word. rewrite Q. cbn [existsb] in Q. replace (c =? 35) with false by lia. reflexivity.
    - rewrite W. unfold after_word. rewrite Q. cbn [ready] in R. destruct (mem_str w not_raw); [discriminate R|reflexivity].
  Qed.
  Lemma run_ready m st b : ready m = true -> sep b = true -> run (m, st) b = run (MTop, st) b.
  Proof.
    intros R S. destruct b as [|c b]; [discriminate S|]. cbn [sep] in S. cbn [RustText.run].
    rewrite (step_ready m), (step_ready MTop); try reflexivity; try exact R; lia.
  Qed.
  Lemma ends_ends st a st1 b st2 : Ends st a st1 -> Ends st1 b st2 -> Ends st (a ++ b) st2.
  Proof. unfold Ends. intros A B. rewrite run_app, A. exact B. Qed.
  Lemma ends_goes st a st1 b st2 : Ends st a st1 -> Goes st1 b st2 -> Goes st (a ++ b) st2.
  Proof. unfold Ends, Goes. intros A B. rewrite run_app, A. exact B. Qed.
  Lemma goes_ends st a st1 b st2 : Goes st a st1 -> sep b = true -> Ends st1 b st2 -> Ends st (a ++ b) st2.
  Proof. unfold Ends, Goes. intros (m & A & R) S B. rewrite run_app, A, run_ready by assumption. exact B. Qed.
  Lemma goes_goes st a st1 b st2 : Goes st a st1 -> sep b = true -> Goes st1 b st2 -> Goes st (a ++ b) st2.
  Proof. unfold Goes. intros (m & A & R) S B. rewrite run_app, A, run_ready by assumption. exact B. Qed.
  Lemma ends_is st a st' : Ends st a st' -> Goes st a st'.
  Proof. intros H. exists MTop. split; [exact H|reflexivity]. Qed.
  Lemma goes_nil st : Goes st [] st.
  Proof. apply ends_is. reflexivity. Qed.
  Definition piece (a : str) : Prop := forall st, Goes st a st.
  Definition epiece (a : str) : Prop := forall st, Ends st a st.
  Lemma goes_app_nil st a st' : Goes st a st' -> Goes st (a ++ []) st'.
  Proof. rewrite app_nil_r. exact (fun H => H). Qed.

  (** *** A text read with no brackets open is read the same way with some open. *)
  Lemma fresh_app st c m st' k : fresh xs st c = Some (m, st') -> fresh xs (st ++ k) c = Some (m, st' ++ k).
  Proof.
    unfold fresh. repeat match goal with |- (if ?b then _ else _) = _ -> _ => destruct b end; try discriminate; try (intros [= <- <-]; reflexivity).
    destruct (closer c); [intros [= <- <-]; reflexivity|]. destruct (existsb (N.eqb c) [41; 93; 125]).
    - destruct st as [|d st]; [discriminate|]. cbn [app]. destruct (d =? c); [intros [= <- <-]; reflexivity|discriminate].
    - destruct (existsb (N.eqb c) punctuation); [intros [= <- <-]; reflexivity|discriminate].
  Qed.
  Lemma step_app m st c m' st' k : step (m, st) c = Some (m', st') -> step (m, st ++ k) c = Some (m', st' ++ k).
  Proof.
    destruct m; cbn [RustText.step fst snd]; unfold after_word;
      repeat match goal with |- (if ?b then _ else _) = _ -> _ => destruct b end; try discriminate; try apply fresh_app; intros [= <- <-]; reflexivity.
  Qed.
  Lemma run_stack s : forall m st m' st' k, run (m, st) s = Some (m', st') -> run (m, st ++ k) s = Some (m', st' ++ k).
  Proof.
    induction s as [|c s IH]; intros m st m' st' k; cbn [RustText.run]; [intros [= <- <-]; reflexivity|].
    destruct (step (m, st) c) as [[m1 st1]|] eqn:E; [|discriminate]. rewrite (step_app _ _ _ _ _ k E). apply IH.
  Qed.
  Lemma closed_piece s : closed xs xc s = true -> piece s.
  Proof.
    unfold closed. destruct (run (MTop, []) s) as [[m [|]]|] eqn:E; try discriminate. intros R st. exists m. split; [|exact R].
    exact (run_stack s MTop [] m [] st E).
  Qed.
  Lemma piece_closed s : piece s -> closed xs xc s = true.
  Proof. intros H. destruct (H []) as (m & E & R). unfold closed. rewrite E. exact R. Qed.

  (** *** Names *)
  Lemma word_run t : forall w st, Forall (fun c => wchar c = true) t -> run (MWord w, st) t = Some (MWord (w ++ t), st).
  Proof.
    induction t as [|c t IH]; intros w st H; [cbn [RustText.run]; rewrite app_nil_r; reflexivity|]. inversion H; subst.
    cbn [RustText.run RustText.step fst snd]. replace (wchar c) with true. rewrite IH by assumption. rewrite <- app_assoc. reflexivity.
  Qed.
  Lemma raw_run t : forall w st, Forall (fun c => wchar c = true) t -> run (MRaw w, st) t = Some (MRaw (w ++ t), st).
  Proof.
    induction t as [|c t IH]; intros w st H; [cbn [RustText.run]; rewrite app_nil_r; reflexivity|]. inversion H; subst.
    cbn [RustText.run RustText.step fst snd]. replace (wchar c) with true. rewrite IH by assumption. rewrite <- app_assoc. reflexivity.
  Qed.
  Lemma start_word c : ident_start c -> (128 <= c -> xs c = true) -> word_start xs c = true.
  Proof. clear xc. unfold ident_start, word_start, between_b. intros A B. destruct (xs c); [lia|]. destruct (N.le_gt_cases 128 c) as [L|L]; [discriminate (B L)|lia]. Qed.
  Lemma tail_word c : ident_start c \/ 48 <= c <= 57 -> (128 <= c -> xs c || xc c = true) -> wchar c = true.
  Proof. unfold ident_start, RustText.word_char, digit_b, between_b. intros A B. destruct (xs c || xc c); [lia|]. destruct (N.le_gt_cases 128 c) as [L|L]; [discriminate (B L)|lia]. Qed.
  Lemma ident_chars x : ident x -> rust_chars xs xc x -> exists c t, x = c :: t /\ word_start xs c = true /\ Forall (fun c => wchar c = true) t.
  Proof.
    intros (c & t & -> & H1 & H2) [R1 R2]. exists c, t. split; [reflexivity|]. split; [apply start_word; assumption|].
    rewrite Forall_forall in *. intros d Hd. apply tail_word; auto.
  Qed.
  Lemma start_fresh st c : word_start xs c = true -> fresh xs st c = Some (MWord [c], st).
  Proof.
    intros H. unfold fresh. rewrite H. reflexivity.
  Qed.
  Lemma name_piece x : ident x -> rust_chars xs xc x -> piece x.
  Proof.
    intros I R st. destruct (ident_chars x I R) as (c & t & -> & S & T). exists (MWord (c :: t)). split; [|reflexivity].
    cbn [RustText.run RustText.step fst snd]. rewrite start_fresh by exact S. exact (word_run t [c] st T).
  Qed.
  Lemma raw_piece x : ident x -> rust_chars xs xc x -> mem_str x not_raw = false -> piece (lit "r#" ++ x).
  Proof.
    intros I R M st. destruct (ident_chars x I R) as (c & t & -> & S & T). exists (MRaw (c :: t)). split; [|cbn [ready]; rewrite M; reflexivity].
    rewrite run_app. change (run (MTop, st) (lit "r#")) with (Some (MHash, st)). cbn [RustText.run RustText.step fst snd]. rewrite S. exact (raw_run t [c] st T).
  Qed.
  Lemma norm_piece x : ident x -> rust_word xs xc x -> piece (normalize_identifier x).
  Proof.
    intros I [R C]. destruct (in_rust_keywords_dec x) as [K|K].
    - rewrite (normalize_keyword _ K). apply raw_piece; try assumption. pose proof keyword_raw as F. rewrite forallb_forall in F. specialize (F x K).
      destruct (str_eqb x (lit "crate")) eqn:E; [apply str_eqb_eq in E; contradiction|]. destruct (mem_str x not_raw); [discriminate F|reflexivity].
    - rewrite (normalize_other _ K). apply name_piece; assumption.
  Qed.

  (** *** Numbers *)
  Lemma num_run s : forall m st, (m = MTop \/ exists w, m = MWord w) -> all_num s -> exists m', run (m, st) s = Some (m', st) /\ (m' = MTop \/ exists w, m' = MWord w).
  Proof.
    induction s as [|c s IH]; intros m st M H; [exists m; split; [reflexivity|exact M]|]. inversion H as [|? ? H1 H2]; subst. cbn [RustText.run].
    assert (P : existsb (N.eqb c) [46; 43; 45] = true -> wchar c = false /\ fresh xs st c = Some (MTop, st)).
    { cbn [existsb]. intros Q. assert (D : c = 46 \/ c = 43 \/ c = 45) by lia. destruct D as [-> | [-> | ->]]; split; reflexivity. }
    destruct (plain_chr c) eqn:L.
    - assert (W : wchar c = true) by (unfold plain_chr in L; unfold RustText.word_char; destruct (128 <=? c), (xs c || xc c); lia).
      assert (F : fresh xs st c = Some (MWord [c], st)).
      { unfold fresh. assert (Q : word_start xs c || digit_b c = true) by (unfold word_start; unfold plain_chr in L; destruct (128 <=? c), (xs c); lia). rewrite Q. reflexivity. }
      destruct M as [->|[w ->]]; cbn [RustText.step fst snd]; [rewrite F|rewrite W]; apply IH; eauto.
    - unfold num_chr in H1. rewrite L in H1. destruct (P H1) as [W F]. destruct M as [->|[w ->]]; cbn [RustText.step fst snd]; [rewrite F; apply IH; auto|].
      rewrite W. unfold after_word. cbn [existsb] in H1. replace (existsb (N.eqb c) [34; 39; 35]) with false by (cbn [existsb]; lia). replace (c =? 35) with false by lia.
      cbn [andb]. rewrite F. apply IH; auto.
  Qed.
  Lemma num_piece s : all_num s -> piece s.
  Proof.
    intros H st. destruct (num_run s MTop st (or_introl eq_refl) H) as (m & E & M). exists m. split; [exact E|]. destruct M as [->|[w ->]]; reflexivity.
  Qed.
  Lemma bool_piece s : In s [lit "true"; lit "false"] -> piece s.
  Proof. intros [<-|[<-|[]]] st; eexists; split; reflexivity. Qed.

  (** *** Literals *)
  Lemma uni_run q t : forall h st, Forall (digit_or_us 16) t -> run (MUni q h, st) t = Some (MUni q (h ++ t), st).
  Proof.
    induction t as [|c t IH]; intros h st H; [cbn [RustText.run]; rewrite app_nil_r; reflexivity|]. inversion H as [|? ? D F]; subst.
    assert (X : c <> 125 /\ hex_b c || (c =? 95) = true).
    { destruct D as [->|D]; [split; [lia|reflexivity]|]. pose proof (hex_b_digit c D) as B. split; [unfold hex_b, digit_b, between_b in B; lia|rewrite B; reflexivity]. }
    destruct X as [X1 X2]. cbn [RustText.run RustText.step fst snd]. replace (c =? 125) with false by lia. rewrite X2, IH by exact F. rewrite <- app_assoc. reflexivity.
  Qed.
  Lemma escape_run e q st : rust_escape e -> match e with _ :: e' => run (MEsc q, st) e' | [] => None end = Some (after q, st).
  Proof.
    intros H. destruct H as [c H|a b H1 H2|h t H1 H2 H3 H4 H5]; cbn [RustText.run RustText.step fst snd].
    - assert (X : existsb (N.eqb c) [110; 114; 116; 92; 48; 39; 34] = true) by (apply existsb_exists; exists c; split; [exact H|apply N.eqb_refl]).
      rewrite X. reflexivity.
    - change (run (MHex1 q, st) [a; b] = Some (after q, st)). cbn [RustText.run RustText.step fst snd]. replace (between_b 48 55 a) with true by (unfold between_b; lia). cbn [RustText.run RustText.step fst snd]. rewrite (hex_b_digit b H2). reflexivity.
    - change (run (MUni q [], st) (h :: t ++ [125]) = Some (after q, st)). change (h :: t ++ [125]) with ((h :: t) ++ [125]). rewrite run_app, uni_run by (constructor; [right; exact H1|exact H2]).
      cbn [app RustText.run RustText.step fst snd]. change (125 =? 125) with true. cbn beta iota.
      assert (C : code_point (h :: t) = true).
      { unfold code_point, scalar, between_b. assert (X : h <> 95). { destruct (N.eq_dec h 95) as [->|]; [|assumption]. exfalso. apply digit_16 in H1. discriminate H1. }
        apply Nat.leb_le in H3. rewrite H3. replace (h =? 95) with false by lia. generalize dependent (hex_value 0 (h :: t)). intros v V1 V2. lia. }
      rewrite C. reflexivity.
  Qed.
  Lemma string_run s : rust_string s -> forall st, run (MStr, st) s = Some (MStr, st).
  Proof.
    induction 1 as [|c s H _ IH|s _ IH|s _ IH|e s H _ IH]; intros st; [reflexivity| | | |].
    - cbn [RustText.run RustText.step fst snd]. cbn [In] in H. replace (c =? 34) with false by lia. replace (c =? 92) with false by lia. replace (c =? 13) with false by lia. apply IH.
    - exact (IH st).
    - exact (IH st).
    - rewrite run_app. assert (X : run (MStr, st) e = Some (MStr, st)). { pose proof (escape_run e 34 st H) as E. destruct H; exact E. } rewrite X. apply IH.
  Qed.
  Lemma str_ends s st r st' : rust_string s -> Ends st r st' -> Ends st (lit """" ++ s ++ lit """" ++ r) st'.
  Proof. intros H E. unfold Ends. change (run (MStr, st) (s ++ lit """" ++ r) = Some (MTop, st')). rewrite run_app, string_run by exact H. exact E. Qed.
  Lemma str_goes s st r st' : rust_string s -> Goes st r st' -> Goes st (lit """" ++ s ++ lit """" ++ r) st'.
  Proof. intros H (m & E & R). exists m. split; [|exact R]. change (run (MStr, st) (s ++ lit """" ++ r) = Some (m, st')). rewrite run_app, string_run by exact H. exact E. Qed.
  Lemma str_epiece s : rust_string s -> epiece (lit """" ++ s ++ lit """").
  Proof. intros H st. exact (str_ends s st [] st H eq_refl). Qed.
  Lemma debug_epiece plain s : epiece (debug_str plain s).
  Proof. apply str_epiece, debug_chars_ok. Qed.
  Lemma chr_epiece s : rust_char s -> epiece (lit "'" ++ s ++ lit "'").
  Proof.
    intros [(c & -> & H)|H] st; unfold Ends.
    - cbn [In] in H. change (run (MQuote, st) [c; 39] = Some (MTop, st)). cbn [RustText.run RustText.step fst snd]. replace (c =? 92) with false by lia.
      replace (existsb (N.eqb c) [39; 10; 13; 9]) with false by (cbn [existsb]; lia). reflexivity.
    - change (run (MQuote, st) (s ++ lit "'") = Some (MTop, st)). rewrite run_app. pose proof (escape_run s 39 st H) as E.
      assert (X : run (MQuote, st) s = Some (MEnd, st)) by (destruct H; exact E). rewrite X. reflexivity.
  Qed.

  (** *** Lists *)
  Lemma join_piece sp l : epiece sp -> sep sp = true -> Forall piece l -> piece (join_with sp l).
  Proof.
    intros E S. induction 1 as [|x l Hx Hl IH]; intros st; [apply goes_nil|]. destruct l as [|y l]; [apply Hx|].
    change (join_with sp (x :: y :: l)) with (x ++ sp ++ join_with sp (y :: l)). eapply goes_goes; [apply Hx| |eapply ends_goes; [apply E|apply IH]].
    destruct sp as [|c sp]; [discriminate S|exact S].
  Qed.
  Lemma concat_epiece l : Forall epiece l -> epiece (concat l).
  Proof. induction 1 as [|x l Hx _ IH]; intros st; [reflexivity|]. cbn [concat]. eapply ends_ends; [apply Hx|apply IH]. Qed.
  Lemma op_goes op st r st' : In op binary_ops -> Goes st r st' -> Goes st (lit " " ++ op ++ lit " " ++ r) st'.
  Proof. intros H (m & E & R). exists m. split; [|exact R]. repeat (destruct H as [<-|H]; [exact E|]). destruct H. Qed.
  Lemma pieces_list l (f : rexpr -> str) : Forall (fun r => piece (f r)) l -> Forall piece (map f l).
  Proof. induction 1; constructor; assumption. Qed.
End Facts.
