(** * Every Rust literal is read in full. *)
From Verif Require Import Base Config ConfigFacts Nom Ws Ast Lex ParseExpr NomFacts LexFacts LitSpec LitFacts ParseSpec TreeSpec ExprFacts WsFacts TextFacts PrecSpec.
From Coq Require Import Lia ZArith ZifyBool ZifyNat ZifyN.
Local Open Scope N_scope.

Lemma many0_satisfy_exact f a r : Forall (fun c => f c = true) a -> nohd f r -> many0 (satisfy f) (a ++ r) = POk r a.
Proof.
  intros Ha Hr. unfold many0.
  assert (G : forall n, (length (a ++ r) < n)%nat -> many0_fuel n (satisfy f) (a ++ r) = POk r a).
  { induction Ha as [|c a Hc Ha IH]; intros n Hn; (destruct n as [|n]; [lia|]).
    - cbn [app]. cbn [many0_fuel]. destruct r as [|c r]; [reflexivity|]. cbn [satisfy]. cbn in Hr. rewrite Hr. reflexivity.
    - cbn [app many0_fuel satisfy]. rewrite Hc. cbn [app length] in Hn. cbn [length].
      destruct (Nat.eqb_spec (length (a ++ r)) (S (length (a ++ r)))); [lia|]. rewrite IH by lia. reflexivity. }
  apply G. lia.
Qed.
Lemma recognize_exact {A} (p : P A) a r x : p (a ++ r) = POk r x -> recognize p (a ++ r) = POk r a.
Proof. intros H. unfold recognize. rewrite H, before_app. reflexivity. Qed.
Lemma digit_is radix c : In radix [2; 8; 10; 16] -> digit_of radix c -> is_digit radix c = true.
Proof. unfold digit_of, is_digit, is_dec. intros [<-|[<-|[<-|[<-|[]]]]]; cbn; lia. Qed.
Lemma digit_us_is radix c : In radix [2; 8; 10; 16] -> digit_or_us radix c -> (c =? 95) || is_digit radix c = true.
Proof. intros H [->|D]; [reflexivity|]. rewrite (digit_is _ _ H D). apply orb_true_r. Qed.
Lemma digit_id radix c : In radix [2; 8; 10; 16] -> is_digit radix c = true -> id_tail c = true.
Proof. unfold is_digit, id_tail, id_start, is_upper, is_lower, is_dec. intros [<-|[<-|[<-|[<-|[]]]]]; cbn; lia. Qed.
Lemma id_no_digit radix r : In radix [2; 8; 10; 16] -> nohd id_tail r -> nohd (fun c => (c =? 95) || is_digit radix c) r.
Proof.
  intros H. destruct r as [|c r]; auto. cbn. intros E. destruct (is_digit radix c) eqn:D; [rewrite (digit_id _ _ H D) in E; discriminate|].
  rewrite orb_false_r. destruct (N.eqb_spec c 95) as [->|]; [discriminate E|reflexivity].
Qed.
Definition nodigit (radix : N) (r : str) : Prop := nohd (fun c => (c =? 95) || is_digit radix c) r.
Lemma sep_digits_true a r : dec_literal a -> nodigit 10 r -> separated_digits 10 true (a ++ r) = POk r a.
Proof.
  intros (c & t & -> & Hc & Ht) Hr. unfold separated_digits. apply recognize_exact with (x := t). unfold pbind, pret. cbn [app satisfy].
  unfold satisfy at 1. rewrite (digit_is 10 c) by (auto; cbn; auto). apply many0_satisfy_exact; auto.
  eapply Forall_impl; [|exact Ht]. intros x. apply digit_us_is. cbn; auto.
Qed.
Lemma digits_split radix x : digits_literal radix x -> exists u d t, x = u ++ d :: t /\ Forall (fun c => c = 95) u /\ digit_of radix d /\ Forall (digit_or_us radix) t.
Proof.
  intros (H & E). induction x as [|c x IH]; [inversion E|]. inversion H as [|? ? Hc Hx]; subst.
  inversion E as [? ? D|? ? D]; subst; [exists [], c, x; auto|].
  destruct Hc as [->|Hc]; [|exists [], c, x; auto].
  destruct (IH Hx D) as (u & d & t & -> & Hu & Hd & Ht). exists (95 :: u), d, t. auto.
Qed.
Lemma sep_digits_false radix x r : In radix [2; 8; 10; 16] -> digits_literal radix x -> nodigit radix r -> separated_digits radix false (x ++ r) = POk r x.
Proof.
  intros HR Hx Hr. destruct (digits_split _ _ Hx) as (u & d & t & -> & Hu & Hd & Ht). unfold separated_digits.
  apply recognize_exact with (x := t). rewrite <- app_assoc. cbn [app].
  assert (D : is_digit radix d = true) by now apply digit_is.
  assert (D95 : (95 =? d) = false) by (destruct (N.eqb_spec 95 d) as [<-|]; auto; destruct HR as [<-|[<-|[<-|[<-|[]]]]]; discriminate D).
  unfold pbind. unfold pchar. rewrite (many0_satisfy_exact (N.eqb 95) u (d :: t ++ r)).
  - unfold satisfy at 1. rewrite D. apply many0_satisfy_exact; auto. eapply Forall_impl; [|exact Ht]. intros y. now apply digit_us_is.
  - eapply Forall_impl; [|exact Hu]. intros y ->. reflexivity.
  - exact D95.
Qed.

(** ** Suffixes *)
Lemma nohd_no (f : N -> bool) c r : f c = true -> nohd f (c :: r) -> False.
Proof. cbn. congruence. Qed.
Lemma tag_perr t i : tag t i = PErr i None \/ exists x, i = t ++ x.
Proof. destruct (tag_cases t i) as [(x & -> & _)|[_ E]]; eauto. Qed.
Ltac tag_out H :=
  repeat match goal with |- context[tag ?t ?i] =>
    let E := fresh in let x := fresh in destruct (tag_perr t i) as [E|[x E]]; [rewrite E; clear E|exfalso; subst; revert H; vm_compute; discriminate] end.
Lemma no_int_suffix r : nohd id_tail r -> integer_suffix r = PErr r None.
Proof. intros H. unfold integer_suffix, por. tag_out H. reflexivity. Qed.
Lemma no_float_suffix r : nohd id_tail r -> float_suffix r = PErr r None.
Proof. intros H. unfold float_suffix, por. tag_out H. reflexivity. Qed.
Lemma int_suffix_exact s r : In s int_suffixes -> integer_suffix (s ++ r) = POk r s.
Proof. intros H. repeat (destruct H as [<-|H]; [reflexivity|]). destruct H. Qed.
Lemma float_suffix_exact s r : In s float_suffixes -> float_suffix (s ++ r) = POk r s.
Proof. intros H. repeat (destruct H as [<-|H]; [reflexivity|]). destruct H. Qed.
Lemma int_not_float s r : In s float_suffixes -> integer_suffix (s ++ r) = PErr (s ++ r) None.
Proof. intros H. repeat (destruct H as [<-|H]; [reflexivity|]). destruct H. Qed.
Lemma opt_int_exact s r : In s ([] :: int_suffixes) -> nohd id_tail r -> exists o, opt integer_suffix (s ++ r) = POk r o.
Proof.
  intros [<-|H] Hr; unfold opt.
  - cbn [app]. rewrite no_int_suffix by auto. eauto.
  - rewrite int_suffix_exact by auto. eauto.
Qed.
Lemma opt_float_exact s r : In s ([] :: float_suffixes) -> nohd id_tail r -> exists o, opt float_suffix (s ++ r) = POk r o.
Proof.
  intros [<-|H] Hr; unfold opt.
  - cbn [app]. rewrite no_float_suffix by auto. eauto.
  - rewrite float_suffix_exact by auto. eauto.
Qed.
(** The heads of suffixes are no digits. *)
Lemma suffix_nodigit radix s r : In radix [2; 8; 10; 16] -> In s ([] :: int_suffixes) -> nohd id_tail r -> nodigit radix (s ++ r).
Proof.
  intros HR [<-|H] Hr; [now apply id_no_digit|].
  repeat (destruct H as [<-|H]; [destruct HR as [<-|[<-|[<-|[<-|[]]]]]; reflexivity|]). destruct H.
Qed.
Lemma fsuffix_nodigit s r : In s ([] :: float_suffixes) -> nohd id_tail r -> nodigit 10 (s ++ r).
Proof. intros [<-|H] Hr; [apply id_no_digit; cbn; auto|]. repeat (destruct H as [<-|H]; [reflexivity|]). destruct H. Qed.

(** ** Numbers *)
(** What may follow a number: no letter or digit, and no point with a digit. *)
Definition after_num (r : str) : Prop := nohd id_tail r /\ match r with c :: d :: _ => c = 46 -> is_dec d = false | _ => True end.
Definition radix_branch : P str :=
  recognize (pchar 48 ;;;
               ((recognize (pchar 98 ;;; separated_digits 2 false) <|>
                 recognize (pchar 111 ;;; separated_digits 8 false) <|>
                 recognize (pchar 120 ;;; separated_digits 16 false)) ;;;
                opt integer_suffix)).
Definition dec_tail : P (option str) :=
  opt (integer_suffix <|> float_suffix <|>
                    recognize (opt (pchar 46 ;;; separated_digits 10 true) ;;;
                               (one_of (lit "eE") ;;; (opt (one_of (lit "+-")) ;;; (separated_digits 10 false ;;; opt float_suffix)))) <|>
                    recognize (pchar 46 ;;; (separated_digits 10 true ;;; opt float_suffix))).
Lemma num_lit_eq : num_lit = recognize (opt (pchar 45) ;;; (radix_branch <|> recognize (separated_digits 10 true ;;; dec_tail))).
Proof. reflexivity. Qed.
Lemma sep_true_perr r : nohd is_dec r -> is_perr (separated_digits 10 true r).
Proof.
  intros H. unfold separated_digits, recognize, pbind, pret. destruct r as [|c r]; [unfold is_perr; cbn; eauto|]. cbn in H.
  unfold satisfy at 1. change (is_digit 10 c) with (is_dec c). rewrite H. unfold is_perr; eauto.
Qed.
Lemma radix_no d t : nohd (fun c => (c =? 98) || (c =? 111) || (c =? 120)) t -> is_perr (radix_branch (d :: t)).
Proof.
  intros H. unfold radix_branch, recognize at 1, pbind at 1. unfold pchar at 1, satisfy at 1. destruct (48 =? d); [|unfold is_perr; eauto].
  unfold pbind at 1, por, recognize, pbind, pchar, satisfy. destruct t as [|c t]; [unfold is_perr; eauto|]. cbn in H.
  destruct (N.eqb_spec 98 c) as [<-|]; [discriminate H|]. destruct (N.eqb_spec 111 c) as [<-|]; [discriminate H|].
  destruct (N.eqb_spec 120 c) as [<-|]; [discriminate H|]. unfold is_perr; eauto.
Qed.
(** A number that starts with a digit and whose second character is not a radix mark. *)
Lemma dec_number a tl r o : dec_literal a -> nodigit 10 (tl ++ r) -> nohd (fun c => (c =? 98) || (c =? 111) || (c =? 120)) (tl ++ r) ->
  dec_tail (tl ++ r) = POk r o -> num_lit (a ++ tl ++ r) = POk r (a ++ tl).
Proof.
  intros Ha Hn Hx Ht. rewrite num_lit_eq, app_assoc. apply recognize_exact with (x := a ++ tl). unfold pbind at 1.
  destruct Ha as (d & t & -> & Hd & Hdt).
  assert (Dd : is_dec d = true) by (pose proof (digit_is 10 d ltac:(cbn; auto) Hd) as Q; exact Q).
  assert (E45 : opt (pchar 45) (((d :: t) ++ tl) ++ r) = POk (((d :: t) ++ tl) ++ r) None).
  { unfold opt, pchar, satisfy. cbn [app]. destruct (N.eqb_spec 45 d) as [<-|]; [discriminate Dd|reflexivity]. }
  rewrite E45. unfold por.
  destruct (radix_no d (t ++ tl ++ r)) as (e & m & E).
  { destruct t as [|x t]; [exact Hx|]. cbn. inversion Hdt as [|? ? Hx0 _]; subst. destruct Hx0 as [->|D]; [reflexivity|].
    pose proof (digit_is 10 x ltac:(cbn; auto) D) as Q. unfold is_digit, is_dec in Q. cbn in Q. lia. }
  replace (((d :: t) ++ tl) ++ r) with (d :: t ++ tl ++ r) by (cbn [app]; now rewrite app_assoc).
  rewrite E. replace (d :: t ++ tl ++ r) with (((d :: t) ++ tl) ++ r) by (cbn [app]; now rewrite app_assoc).
  apply recognize_exact with (x := o). unfold pbind. rewrite <- app_assoc.
  rewrite sep_digits_true; [exact Ht|exists d, t; auto|exact Hn].
Qed.
Lemma exp_fails r : after_num r ->
  is_perr (recognize (opt (pchar 46 ;;; separated_digits 10 true) ;;;
                               (one_of (lit "eE") ;;; (opt (one_of (lit "+-")) ;;; (separated_digits 10 false ;;; opt float_suffix)))) r).
Proof.
  intros (H1 & H2). unfold recognize at 1, pbind at 1.
  assert (E : opt (pchar 46 ;;; separated_digits 10 true) r = POk r None).
  { unfold opt, pbind, pchar. unfold satisfy. destruct r as [|c r]; auto. destruct (N.eqb_spec 46 c) as [<-|]; auto.
    destruct (sep_true_perr r) as (e & m & ->); auto. destruct r; auto. cbn. auto. }
  rewrite E. unfold pbind at 1, one_of at 1, satisfy at 1. destruct r as [|c r]; [unfold is_perr; eauto|].
  destruct (mem_chr c (lit "eE")) eqn:M; [|unfold is_perr; eauto]. exfalso. cbn in M, H1.
  unfold id_tail, id_start, is_upper, is_lower in H1. lia.
Qed.
Lemma dot_fails r : after_num r -> is_perr (recognize (pchar 46 ;;; (separated_digits 10 true ;;; opt float_suffix)) r).
Proof.
  intros (H1 & H2). unfold recognize at 1, pbind at 1. unfold pchar, satisfy at 1. destruct r as [|c r]; [unfold is_perr; eauto|].
  destruct (N.eqb_spec 46 c) as [<-|]; [|unfold is_perr; eauto]. unfold pbind. destruct (sep_true_perr r) as (e & m & ->); [|unfold is_perr; eauto].
  destruct r; auto. cbn. auto.
Qed.
Theorem num_lit_complete s r : rust_number s -> after_num r -> num_lit (s ++ r) = POk r s.
Proof.
  intros Hs (Hr & Hd). pose proof (conj Hr Hd : after_num r) as Ha.
  assert (HR10 : In 10 [2; 8; 10; 16]) by (cbn; auto).
  destruct Hs as [a suf HA HS|p radix x suf HP HX HS|a b suf HA HB HS|a fr e sign x suf HA HF HE HG HX HS].
  - (* integer *)
    rewrite <- app_assoc. destruct HS as [<-|HS]; [|apply in_app_or in HS; destruct HS as [HS|HS]].
    + cbn [app]. change (num_lit (a ++ [] ++ r) = POk r (a ++ [])). apply dec_number with (o := None); auto.
      * now apply id_no_digit.
      * cbn [app]. destruct r as [|c r]; auto. cbn in *. unfold id_tail, id_start, is_upper, is_lower in Hr. lia.
      * cbn [app]. unfold dec_tail, opt at 1, por. rewrite no_int_suffix, no_float_suffix by auto.
        destruct (exp_fails r Ha) as (e & m & ->). destruct (dot_fails r Ha) as (e' & m' & ->). reflexivity.
    + apply dec_number with (o := Some suf); auto.
      * apply suffix_nodigit; auto. cbn; auto.
      * clear -HS. repeat (destruct HS as [<-|HS]; [reflexivity|]). destruct HS.
      * unfold dec_tail, opt at 1, por. rewrite int_suffix_exact by auto. reflexivity.
    + apply dec_number with (o := Some suf); auto.
      * apply fsuffix_nodigit; auto. cbn; auto.
      * clear -HS. repeat (destruct HS as [<-|HS]; [reflexivity|]). destruct HS.
      * unfold dec_tail, opt at 1, por. rewrite int_not_float, float_suffix_exact by auto. reflexivity.
  - (* radix *)
    assert (HR : In radix [2; 8; 10; 16]) by (cbn in HP; cbn; destruct HP as [[= _ <-]|[[= _ <-]|[[= _ <-]|[]]]]; auto).
    destruct (opt_int_exact suf r HS Hr) as (o & Ho).
    pose proof (sep_digits_false radix x (suf ++ r) HR HX (suffix_nodigit _ _ _ HR HS Hr)) as D.
    rewrite num_lit_eq. apply recognize_exact with (x := p ++ x ++ suf). unfold pbind at 1.
    assert (B : radix_branch ((p ++ x ++ suf) ++ r) = POk r (p ++ x ++ suf)).
    { unfold radix_branch. apply recognize_exact with (x := o). rewrite <- !app_assoc.
      cbn in HP; destruct HP as [[= <- <-]|[[= <- <-]|[[= <- <-]|[]]]];
        unfold pbind at 1; cbn [app]; unfold pchar at 1, satisfy at 1; cbn [N.eqb Pos.eqb]; unfold pbind at 1, por.
      all: repeat match goal with |- context[recognize (pchar ?c ;;; ?q) ?i] =>
             first [ assert (Z : recognize (pchar c ;;; q) i = PErr i None) by reflexivity; rewrite Z; clear Z
                   | change i with ([c] ++ x ++ suf ++ r); rewrite (app_assoc [c] x (suf ++ r));
                     rewrite (recognize_exact _ ([c] ++ x) (suf ++ r) x) by (unfold pbind; cbn [app]; unfold pchar, satisfy; cbn [N.eqb Pos.eqb]; exact D) ] end.
      all: exact Ho. }
    assert (E45 : opt (pchar 45) ((p ++ x ++ suf) ++ r) = POk ((p ++ x ++ suf) ++ r) None)
      by (cbn in HP; destruct HP as [[= <- <-]|[[= <- <-]|[[= <- <-]|[]]]]; reflexivity).
    rewrite E45. unfold por. rewrite B. reflexivity.
  - (* fraction *)
    destruct (opt_float_exact suf r HS Hr) as (o & Ho).
    pose proof (sep_digits_true b (suf ++ r) HB (fsuffix_nodigit _ _ HS Hr)) as D.
    rewrite <- app_assoc. apply dec_number with (o := Some (lit "." ++ b ++ suf)); auto; try reflexivity.
    rewrite <- !app_assoc. unfold dec_tail, opt at 1, por. change (lit "." ++ b ++ suf ++ r) with (46 :: b ++ suf ++ r).
    replace (integer_suffix (46 :: b ++ suf ++ r)) with (@PErr str (46 :: b ++ suf ++ r) None) by reflexivity.
    replace (float_suffix (46 :: b ++ suf ++ r)) with (@PErr str (46 :: b ++ suf ++ r) None) by reflexivity.
    assert (E3 : is_perr (recognize (opt (pchar 46 ;;; separated_digits 10 true) ;;;
        (one_of (lit "eE") ;;; (opt (one_of (lit "+-")) ;;; (separated_digits 10 false ;;; opt float_suffix)))) (46 :: b ++ suf ++ r))).
    { unfold recognize at 1, pbind at 1, opt at 1, pbind at 1. unfold pchar, satisfy at 1. cbn [N.eqb Pos.eqb]. rewrite D.
      unfold pbind at 1, one_of at 1, satisfy at 1.
      destruct HS as [<-|[<-|[<-|[]]]]; [|unfold is_perr; cbn; eauto|unfold is_perr; cbn; eauto]. cbn [app].
      destruct r as [|c r]; [unfold is_perr; eauto|]. destruct (mem_chr c (lit "eE")) eqn:M; [|unfold is_perr; eauto]. exfalso. cbn in M, Hr.
      unfold id_tail, id_start, is_upper, is_lower in Hr. lia. }
    destruct E3 as (e3 & m3 & ->).
    change (46 :: b ++ suf ++ r) with ((lit "." ++ b ++ suf ++ r)). rewrite !app_assoc. rewrite <- (app_assoc (lit ".") b suf).
    rewrite (recognize_exact _ (lit "." ++ b ++ suf) r o); [reflexivity|]. rewrite <- !app_assoc.
    unfold pbind at 1. change (pchar 46 (lit "." ++ b ++ suf ++ r)) with (POk (b ++ suf ++ r) 46). unfold pbind. rewrite D. exact Ho.
  - (* exponent *)
    destruct (opt_float_exact suf r HS Hr) as (o & Ho).
    pose proof (sep_digits_false 10 x (suf ++ r) HR10 HX (fsuffix_nodigit _ _ HS Hr)) as D.
    set (y := e ++ sign ++ x ++ suf).
    assert (Y : (one_of (lit "eE") ;;; (opt (one_of (lit "+-")) ;;; (separated_digits 10 false ;;; opt float_suffix))) (y ++ r) = POk r o).
    { unfold y. rewrite <- !app_assoc.
      assert (Z : (opt (one_of (lit "+-")) ;;; (separated_digits 10 false ;;; opt float_suffix)) (sign ++ x ++ suf ++ r) = POk r o).
      { unfold pbind at 1. destruct HG as [<-|[<-|[<-|[]]]].
        - cbn [app]. assert (O : opt (one_of (lit "+-")) (x ++ suf ++ r) = POk (x ++ suf ++ r) None).
          { destruct HX as (HX & HX2). destruct x as [|c x]; [inversion HX2|]. inversion HX as [|? ? Hc _]; subst.
            unfold opt, one_of, satisfy. cbn [app]. destruct (mem_chr c (lit "+-")) eqn:M; auto. exfalso. cbn in M. destruct Hc as [->|Hc]; [discriminate M|].
            pose proof (digit_is 10 c HR10 Hc) as Q. unfold is_digit, is_dec in Q. cbn in Q. lia. }
          rewrite O. unfold pbind. rewrite D. exact Ho.
        - change (opt (one_of (lit "+-")) (lit "+" ++ x ++ suf ++ r)) with (POk (x ++ suf ++ r) (Some 43)). unfold pbind. rewrite D. exact Ho.
        - change (opt (one_of (lit "+-")) (lit "-" ++ x ++ suf ++ r)) with (POk (x ++ suf ++ r) (Some 45)). unfold pbind. rewrite D. exact Ho. }
      unfold pbind at 1. destruct HE as [<-|[<-|[]]]; exact Z. }
    assert (T3 : forall fr', (fr' = [] \/ exists b, fr' = lit "." ++ b /\ dec_literal b) ->
      recognize (opt (pchar 46 ;;; separated_digits 10 true) ;;;
        (one_of (lit "eE") ;;; (opt (one_of (lit "+-")) ;;; (separated_digits 10 false ;;; opt float_suffix)))) ((fr' ++ y) ++ r) = POk r (fr' ++ y)).
    { intros fr' HF'. apply recognize_exact with (x := o). rewrite <- app_assoc. unfold pbind at 1.
      destruct HF' as [->|(b & -> & HB)].
      - cbn [app]. assert (O : opt (pchar 46 ;;; separated_digits 10 true) (y ++ r) = POk (y ++ r) None) by (unfold y; destruct HE as [<-|[<-|[]]]; reflexivity).
        rewrite O. exact Y.
      - unfold opt at 1, pbind at 1. rewrite <- app_assoc. change (pchar 46 (lit "." ++ b ++ y ++ r)) with (POk (b ++ y ++ r) 46). cbv iota beta.
        rewrite sep_digits_true; auto. unfold y. destruct HE as [<-|[<-|[]]]; reflexivity. }
    replace ((a ++ fr ++ y) ++ r) with (a ++ (fr ++ y) ++ r) by now rewrite <- !app_assoc.
    apply dec_number with (o := Some (fr ++ y)); auto.
    + rewrite <- app_assoc. destruct HF as [->|(b & -> & HB)]; [|reflexivity]. unfold y. destruct HE as [<-|[<-|[]]]; reflexivity.
    + rewrite <- app_assoc. destruct HF as [->|(b & -> & HB)]; [|reflexivity]. unfold y. destruct HE as [<-|[<-|[]]]; reflexivity.
    + unfold dec_tail, opt at 1, por.
      assert (I1 : integer_suffix ((fr ++ y) ++ r) = PErr ((fr ++ y) ++ r) None)
        by (rewrite <- app_assoc; destruct HF as [->|(b & -> & HB)]; [unfold y; destruct HE as [<-|[<-|[]]]; reflexivity|reflexivity]).
      assert (I2 : float_suffix ((fr ++ y) ++ r) = PErr ((fr ++ y) ++ r) None)
        by (rewrite <- app_assoc; destruct HF as [->|(b & -> & HB)]; [unfold y; destruct HE as [<-|[<-|[]]]; reflexivity|reflexivity]).
      rewrite I1, I2, T3 by exact HF. reflexivity.
Qed.

Lemma rust_number_hd s : rust_number s -> exists c t, s = c :: t /\ is_dec c = true.
Proof.
  assert (D : forall a tl, dec_literal a -> exists c t, a ++ tl = c :: t /\ is_dec c = true).
  { intros a tl (c & t & -> & Hc & _). exists c, (t ++ tl). split; auto. exact (digit_is 10 c ltac:(cbn; auto) Hc). }
  intros [a suf HA _|p radix x suf HP _ _|a b suf HA _ _|a fr e sign x suf HA _ _ _ _ _]; auto.
  cbn in HP. destruct HP as [[= <- <-]|[[= <- <-]|[[= <- <-]|[]]]]; cbn; eauto.
Qed.
Theorem signed_complete s r : signed_number s -> after_num r -> num_lit (s ++ r) = POk r s.
Proof.
  intros [H|(t & -> & H)] Hr; [now apply num_lit_complete|].
  pose proof (num_lit_complete t r H Hr) as K. destruct (rust_number_hd t H) as (c & u & -> & Hc).
  rewrite num_lit_eq in *. unfold recognize at 1 in K. unfold pbind at 1 in K.
  assert (E : opt (pchar 45) ((c :: u) ++ r) = POk ((c :: u) ++ r) None).
  { unfold opt, pchar, satisfy. cbn [app]. destruct (N.eqb_spec 45 c) as [<-|]; [discriminate Hc|reflexivity]. }
  rewrite E in K. destruct ((radix_branch <|> _) _) as [j x|? ?|? ?|] eqn:F; try discriminate. injection K as -> _.
  apply recognize_exact with (x := x). unfold pbind at 1.
  change (opt (pchar 45) ((45 :: c :: u) ++ r)) with (POk ((c :: u) ++ r) (Some 45)). cbv iota beta. exact F.
Qed.

(** ** Strings and characters *)
Lemma escaped_exact q s r : q <> 92 -> quoted q s -> forall f, s <> [] \/ f = false -> escaped_from q f (s ++ q :: r) = Some (q :: r).
Proof.
  intros Hq. induction 1 as [|c s H1 H2 H IH|c s H IH]; intros f Hf.
  - destruct Hf as [Hf| ->]; [congruence|]. cbn [app escaped_from]. destruct (N.eqb_spec q 92); [congruence|]. rewrite N.eqb_refl. reflexivity.
  - cbn [app escaped_from]. destruct (N.eqb_spec c 92); [congruence|]. destruct (N.eqb_spec c q); [congruence|]. apply IH. auto.
  - cbn [app escaped_from]. cbn [N.eqb Pos.eqb]. apply IH. auto.
Qed.
Lemma opt_escaped_exact q s r : q <> 92 -> quoted q s -> opt (escaped q) (s ++ q :: r) = POk (q :: r) (match s with [] => None | _ => Some s end).
Proof.
  intros Hq H. unfold opt, escaped. destruct s as [|c s].
  - cbn [app escaped_from]. destruct (N.eqb_spec q 92); [congruence|]. rewrite N.eqb_refl. reflexivity.
  - rewrite escaped_exact; auto; [|left; discriminate]. now rewrite before_app.
Qed.
Theorem str_lit_complete s r : quoted 34 s -> str_lit (34 :: s ++ 34 :: r) = POk r s.
Proof.
  intros H. unfold str_lit, pbind. change (pchar 34 (34 :: s ++ 34 :: r)) with (POk (s ++ 34 :: r) 34). cbv iota beta.
  rewrite opt_escaped_exact by (auto; discriminate). change (pchar 34 (34 :: r)) with (POk r 34). destruct s; reflexivity.
Qed.
Lemma hex_quoted h : Forall (digit_of 16) h -> quoted 39 (h ++ [125]).
Proof. induction 1 as [|c h Hc H IH]; [repeat (constructor; try discriminate)|]. cbn [app]. constructor; auto; intros ->; unfold digit_of in Hc; cbn in Hc; lia. Qed.
Lemma char_quoted s : char_text s -> quoted 39 s /\ s <> [].
Proof.
  intros [c H1 H2|c H|a b Ha Hb|h Hh _ _]; (split; [|discriminate]).
  - repeat constructor; auto.
  - apply qt_esc. constructor.
  - apply qt_esc. constructor; [lia|lia|]. constructor; [| |constructor]; intros ->; unfold digit_of in Hb; cbn in Hb; lia.
  - apply qt_esc. constructor; [discriminate|discriminate|]. now apply hex_quoted.
Qed.
Lemma span_max_exact f n a r : Forall (fun c => f c = true) a -> (length a <= n)%nat -> nohd f r -> span_max n f (a ++ r) = (a, r).
Proof.
  intros H. revert n. induction H as [|c a Hc H IH]; intros n Hn Hr.
  - cbn [app]. destruct n; auto. cbn. destruct r as [|c r]; auto. cbn in Hr. now rewrite Hr.
  - cbn [app length] in *. destruct n as [|n]; [lia|]. cbn. rewrite Hc, IH by (auto; lia). reflexivity.
Qed.
Theorem char_lit_complete s r : char_text s -> char_lit (39 :: s ++ 39 :: r) = POk r s.
Proof.
  intros H. destruct (char_quoted s H) as [Hq Hn]. unfold char_lit. unfold pbind.
  change (pchar 39 (39 :: s ++ 39 :: r)) with (POk (s ++ 39 :: r) 39). cbv iota beta.
  rewrite opt_escaped_exact by (auto; discriminate). change (pchar 39 (39 :: r)) with (POk r 39). unfold pret.
  destruct H as [c H1 H2|c H|a b Ha Hb|h Hh Hl Hv]; cbv iota beta.
  - reflexivity.
  - repeat (destruct H as [<-|H]; [reflexivity|]). destruct H.
  - assert (B : is_hex b = true) by (unfold is_hex; apply digit_is; cbn; auto).
    assert (A : is_hex a = true) by (unfold is_hex, is_digit, is_dec; cbn; lia).
    assert (C : char_parse [92; 120; a; b] = POk [] (CAscii [a; b])).
    { unfold char_parse, pbind. cbn [pchar satisfy N.eqb Pos.eqb]. unfold pchar, satisfy, por, value, pmap. cbn [N.eqb Pos.eqb].
      unfold pbind, take_while_m_n. cbn [span_max]. rewrite A, B. reflexivity. }
    rewrite C. assert (V : (127 <? from_hex [a; b]) = false); [|now rewrite V].
    unfold from_hex. cbn [fold_left]. unfold digit_of in Hb. cbn in Hb.
    assert (Ba : hex_digit a <= 7) by (unfold hex_digit, is_dec; replace ((48 <=? a) && (a <=? 57)) with true by lia; lia).
    assert (Bb : hex_digit b <= 15).
    { unfold hex_digit, is_dec. destruct ((48 <=? b) && (b <=? 57)) eqn:E1; [lia|]. destruct (b <=? 70) eqn:E2; lia. }
    lia.
  - assert (HH : Forall (fun c => is_hex c = true) h) by (eapply Forall_impl; [|exact Hh]; intros; unfold is_hex; apply digit_is; cbn; auto).
    assert (C : char_parse (92 :: 117 :: 123 :: h ++ [125]) = POk [] (CUnicode h)).
    { assert (T : take_while_m_n 1 6 is_hex (h ++ [125]) = POk [125] h).
      { unfold take_while_m_n. rewrite span_max_exact; [|exact HH|lia|reflexivity]. destruct (Nat.ltb_spec (length h) 1); [lia|reflexivity]. }
      unfold char_parse, pbind. cbn [pchar satisfy N.eqb Pos.eqb]. unfold pchar, satisfy, por, value, pmap. cbn [N.eqb Pos.eqb].
      change (tag (lit "u{") (117 :: 123 :: h ++ [125])) with (POk (h ++ [125]) (lit "u{")). unfold pbind. cbv iota beta. rewrite T. reflexivity. }
    rewrite C. assert (V : (1114111 <? from_hex h) = false); [|now rewrite V].
    unfold from_hex. rewrite from_hex_value by exact HH. now apply N.ltb_ge.
Qed.
(** ** Rust's literals are among those that are read *)
Lemma quoted_app q a b : quoted q a -> quoted q b -> quoted q (a ++ b).
Proof. intros H Hb. induction H; cbn [app]; [exact Hb|apply qt_plain; auto|apply qt_esc; auto]. Qed.
Lemma hex_digits_quoted q l : q < 48 -> Forall (digit_or_us 16) l -> quoted q l.
Proof. intros Q H. induction H as [|c l Hc Hl IH]; [constructor|]. apply qt_plain; auto; unfold digit_or_us, digit_of in Hc; lia. Qed.
Lemma escape_quoted e : rust_escape e -> quoted 34 e.
Proof.
  intros [c H|a b Ha Hb|h t Hh Ht _ _ _].
  - apply qt_esc. constructor.
  - apply qt_esc. unfold digit_of in Hb. repeat (apply qt_plain; [lia|lia|]). constructor.
  - apply qt_esc. apply qt_plain; [discriminate..|]. change (h :: t ++ [125]) with ((h :: t) ++ [125]). apply quoted_app.
    + apply hex_digits_quoted; [lia|]. constructor; [right; exact Hh|exact Ht].
    + apply qt_plain; [discriminate..|constructor].
Qed.
Lemma rust_string_quoted s : rust_string s -> quoted 34 s.
Proof.
  induction 1 as [|c s H _ IH|s _ IH|s _ IH|e s H _ IH].
  - constructor.
  - apply qt_plain; auto; intros ->; apply H; cbn; tauto.
  - apply qt_plain; [discriminate..|]. apply qt_plain; [discriminate..|exact IH].
  - apply qt_esc. exact IH.
  - apply quoted_app; [now apply escape_quoted|exact IH].
Qed.
Lemma rust_char_text s : rust_char s -> ~ In 95 s \/ (exists c, s = [c]) -> char_text s.
Proof.
  intros [(c & -> & H)|H] Hu.
  - apply ct_plain; intros ->; apply H; cbn; tauto.
  - destruct Hu as [Hu|(c & ->)]; [|inversion H].
    destruct H as [c H|a b Ha Hb|h t Hh Ht Hl Hv Hs].
    + now apply ct_simple.
    + now apply ct_ascii.
    + change (92 :: 117 :: 123 :: h :: t ++ [125]) with (92 :: 117 :: 123 :: (h :: t) ++ [125]). 
      assert (F : Forall (digit_of 16) (h :: t)).
      { constructor; [exact Hh|]. rewrite Forall_forall in *. intros x Hx. destruct (Ht x Hx) as [->|D]; auto. exfalso. apply Hu. cbn. do 4 right. apply in_or_app. auto. }
      assert (E : forall l, Forall (digit_of 16) l -> List.filter (fun c => negb (c =? 95)) l = l).
      { induction 1 as [|x l Hx Hl' IH]; [reflexivity|]. cbn [List.filter]. rewrite IH. unfold digit_of in Hx. destruct (N.eqb_spec x 95); [lia|reflexivity]. }
      rewrite (E _ F) in Hl. apply ct_unicode; auto. cbn [length] in *. lia.
Qed.
