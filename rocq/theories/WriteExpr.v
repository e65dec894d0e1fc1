(** * Written expressions and argument lists, as the tags read them. *)
From Verif Require Import Base Config ConfigFacts Nom Ws Ast Lex ParseExpr ParseNode NomFacts LexFacts LitSpec LitFacts ParseSpec TreeSpec ExprFacts WsFacts TextFacts PrecSpec LitComplete SimExpr SimFacts PrecFacts PrecRound WriteSpec WriteTarget.
From Coq Require Import Lia ZArith ZifyBool ZifyNat ZifyN.
Local Open Scope N_scope.

Set Default Proof Using "Type".
Section Expr.
  Variable lc : N -> bool.
  Notation pe := (pe lc).
  Notation canon := (canon lc).
  Notation fits := (fits lc).

  Lemma good0_all e : canon 0 e -> good0 lc e.
  Proof. intros H. exact (proj2 (proj2 (reads_all lc e 0%nat H))). Qed.
  Lemma good1_all e : canon 1 e -> good lc 1 e.
  Proof. intros H. apply (proj1 (reads_all lc e 1%nat H)). lia. Qed.

  (** ** One expression *)
  Lemma eparse_read s e b r : fits (level s) e -> blanks b -> ends2 r -> exists b2, blanks b2 /\ eparse lc s (text e ++ b ++ r) = (POk (b2 ++ r) e, s).
  Proof.
    intros (Hc & Hn) Hb Hr. destruct (good0_all e Hc (MAX_DEPTH - level s - 15)%nat b r) as (b2 & B2 & E); auto; [unfold MAX_DEPTH; lia|].
    exists b2. split; auto. unfold eparse, with_level, expr_parse. replace (15 + (MAX_DEPTH - level s - 15))%nat with (MAX_DEPTH - level s)%nat in E by (unfold MAX_DEPTH; lia). now rewrite E.
  Qed.
  Lemma mws_ok {A} (p : M A) s b i b' r a s' : blanks b -> nohd is_ws i -> blanks b' -> nohd is_ws r -> p s i = (POk (b' ++ r) a, s') -> mws p s (b ++ i) = (POk r a, s').
  Proof.
    clear lc. intros Hb Hi Hb' Hr E. unfold mws. eapply mb_lift; [now apply skip_blanks_exact|]. eapply mb_ok; [exact E|]. eapply mb_lift; [now apply skip_blanks_exact|]. reflexivity.
  Qed.
  Lemma mws_eparse s b0 e b r : fits (level s) e -> blanks b0 -> blanks b -> ends2 r -> mws (eparse lc) s (b0 ++ text e ++ b ++ r) = (POk r e, s).
  Proof.
    intros He Hb0 Hb Hr. destruct (eparse_read s e b r He Hb Hr) as (b2 & B2 & E). eapply mws_ok; [auto| |exact B2| |exact E]; [|now apply ends2_ws].
    destruct He as (Hc & _). eapply canon_ws; eauto.
  Qed.
  (** Before a word. *)
  Lemma range_word r b c s : blanks b -> id_start c = true -> is_perr (range_right lc r (b ++ c :: s)).
  Proof.
    intros Hb Hc. unfold range_right, pbind at 1. destruct (pws_perr (tag (lit "..=") <|> tag (lit "..")) b (c :: s) Hb (word_ws _ _ Hc)) as (e & m & ->); [|exact (perr_i _ _)].
    unfold por. change (lit "..=") with (46 :: lit ".="). change (lit "..") with (46 :: lit "."). rewrite !no_tag; [exact (perr_i _ _)|now apply word_chr..].
  Qed.
  Lemma eparse_word s e b c r : fits (level s) e -> ~ open_range e -> gap b -> id_start c = true -> eparse lc s (text e ++ b ++ c :: r) = (POk (b ++ c :: r) e, s).
  Proof.
    intros (Hc & Hn) Ho (Hb & Hne) Hw. unfold eparse, with_level, expr_parse. f_equal.
    remember (MAX_DEPTH - level s - 15)%nat as n eqn:En. replace (MAX_DEPTH - level s)%nat with (S (14 + n)) by (unfold MAX_DEPTH in *; lia).
    assert (Ln : (need e <= n)%nat) by (unfold MAX_DEPTH in *; lia). clear Hn En. rewrite pe_parse. unfold por, pmap.
    assert (R1 : forall x, canon 1 x -> (need x <= n)%nat -> pe (14 + n) NtOr (text x ++ b ++ c :: r) = POk (b ++ c :: r) x).
    { intros x Hx Lx. exact (good1_all x Hx n (b ++ c :: r) Lx (f_word 1 b c r Hne Hb Hw)). }
    assert (RR : forall b0 o x, In o range_ops -> blanks b0 -> canon 1 x -> (need x <= n)%nat ->
      range_right lc (14 + n) (b0 ++ o ++ lit " " ++ text x ++ b ++ c :: r) = POk (b ++ c :: r) (o, Some x)).
    { intros b0 o x Hop Hb0 Hx Lx. unfold range_right, pbind at 1.
      rewrite (pws_exact (tag (lit "..=") <|> tag (lit "..")) b0 (o ++ lit " " ++ text x ++ b ++ c :: r) o (lit " ") (text x ++ b ++ c :: r) o).
      - unfold pbind, opt. rewrite R1 by auto. reflexivity.
      - exact Hb0.
      - repeat constructor; cbn; tauto.
      - destruct Hop as [<-|[<-|[]]]; reflexivity.
      - eapply canon_ws; eauto.
      - reflexivity.
      - unfold por. destruct Hop as [<-|[<-|[]]]; [now rewrite tag_exact|]. rewrite (tag_fail (lit "..=")); [now rewrite tag_exact|].
        intros y E. change (lit "..=" ++ y) with (lit ".." ++ 61 :: y) in E. apply app_inv_head in E. discriminate E. }
    destruct (match e with Range _ _ _ => true | _ => false end) eqn:D.
    - destruct e as [| | | | | | | | | | | | |o l x| | | | | |]; try discriminate D. destruct x as [x|]; [|exfalso; apply Ho; do 2 eexists; reflexivity].
      cbn [PrecSpec.canon] in Hc. destruct Hc as (_ & Hop & Hl & Hx). cbn [need] in Ln. cbn [text]. rewrite <- !app_assoc. destruct l as [l|].
      + destruct (range_no lc (14 + n) ((text l ++ lit " ") ++ o ++ lit " " ++ text x ++ b ++ c :: r)) as (y & m & ->);
          [rewrite <- app_assoc; eapply canon_ws; eauto|rewrite <- app_assoc; eapply (canon_no_range lc 1); eauto|].
        unfold pbind at 1. rewrite <- app_assoc.
        pose proof (good1_all l Hl n (lit " " ++ o ++ lit " " ++ text x ++ b ++ c :: r) ltac:(lia) (f_range 1 o _ ltac:(lia) Hop)) as G.
        change (lp lc 1 (15 - 1 + n)) with (pe (14 + n) NtOr) in G. rewrite G. unfold pbind, opt.
        rewrite RR; [reflexivity|exact Hop|repeat constructor; cbn; tauto|exact Hx|lia].
      + cbn [app]. pose proof (RR [] o x Hop ltac:(constructor) Hx ltac:(lia)) as E. cbn [app] in E. rewrite E. reflexivity.
    - assert (C1 : canon 1 e).
      { revert Hc. clear - D. destruct e; try discriminate D; cbn [PrecSpec.canon]; try tauto; try (intros (_ & K); split; [lia|exact K]).
        intros (p & H1 & H2 & H3). exists p. split; auto. split; auto. repeat (destruct H1 as [[= _ <-]|H1]; [lia|]). destruct H1. }
      destruct (range_no lc (14 + n) (text e ++ b ++ c :: r)) as (y & m & ->); [eapply canon_ws; eauto|eapply (canon_no_range lc 1); eauto|].
      unfold pbind at 1. rewrite R1 by auto. unfold pbind, opt. destruct (range_word (14 + n) b c r Hb Hw) as (z & m' & ->). reflexivity.
  Qed.
  Lemma mws_eparse_word s b0 e b c r : fits (level s) e -> ~ open_range e -> blanks b0 -> gap b -> id_start c = true ->
    mws (eparse lc) s (b0 ++ text e ++ b ++ c :: r) = (POk (c :: r) e, s).
  Proof.
    intros He Ho Hb0 Hb Hc. eapply mws_ok; [auto| |apply Hb| |now apply eparse_word]; [|now apply word_ws]. destruct He as (H & _). eapply canon_ws; eauto.
  Qed.

  (** ** Arguments *)
  (** After the first word of an expression there is no single [=]. *)
  Definition noteq (r : str) : Prop := exists b y, r = b ++ y /\ blanks b /\ nohd is_ws y /\ (nohd (N.eqb 61) y \/ exists z, y = 61 :: 61 :: z).
  Lemma noteq_hd r : nohd is_ws r -> nohd (N.eqb 61) r -> noteq r.
  Proof. intros H1 H2. exists [], r. repeat split; auto. constructor. Qed.
  Lemma noteq_char c r : is_ws c = false -> c <> 61 -> noteq (c :: r).
  Proof. intros H1 H2. apply noteq_hd; auto. cbn [nohd]. destruct (N.eqb_spec 61 c); congruence. Qed.
  Definition ew (r : str) : Prop := nohd id_tail r /\ noteq r.
  Lemma ew_char c r : is_ws c = false -> c <> 61 -> id_tail c = false -> ew (c :: r).
  Proof. intros H1 H2 H3. split; [exact H3|now apply noteq_char]. Qed.
  Lemma ew_op op p y : In (op, p) precedence -> ew (lit " " ++ op ++ y).
  Proof.
    intros H. split; [reflexivity|]. exists (lit " "), (op ++ y). split; [reflexivity|]. split; [repeat constructor; cbn; tauto|].
    repeat (destruct H as [[= <- _]|H]; [split; [reflexivity|]; first [left; reflexivity|right; eexists; reflexivity]|]). destruct H.
  Qed.
  Lemma path_word p r : path_ok p -> ew r -> forall w j, identifier (sep_by (lit "::") p ++ r) = POk j w -> noteq j.
  Proof.
    intros (l & Hn & Hl & Hp) Hr w j. destruct l as [|x l]; [congruence|]. inversion Hl as [|? ? Hx _]; subst. destruct Hp as [->| ->].
    - rewrite sep_cons, <- app_assoc. destruct l as [|y l]; cbn [map concat].
      + rewrite ident_read by (auto; apply Hr). intros E. injection E as <- _. apply Hr.
      + rewrite ident_read by (auto; reflexivity). intros E. injection E as <- _. apply noteq_hd; reflexivity.
    - discriminate.
  Qed.
  Lemma no_word_start c t w j : id_start c = false -> identifier (c :: t) = POk j w -> False.
  Proof. clear lc. intros H E. destruct (WriteTarget.identifier_no (c :: t) H) as (e & m & E'). congruence. Qed.
  Lemma first_word e : forall k z w j, canon k e -> ew z -> identifier (text e ++ z) = POk j w -> noteq j.
  Proof.
    induction e using expr_ind'; intros k z w j Hc Hr; cbn [PrecSpec.canon] in Hc; cbn [text].
    - destruct Hc as (_ & Hs & _). rewrite ident_read; [|apply bool_ident; auto|apply Hr]. intros E. injection E as <- _. apply Hr.
    - destruct Hc as (_ & Hs). destruct (rust_number_hd _ Hs) as (c & t & -> & C). cbn [app]. intros E. exfalso. eapply no_word_start; [|exact E].
      revert C. unfold is_dec, id_start, is_upper, is_lower. lia.
    - intros E. discriminate E.
    - intros E. discriminate E.
    - destruct Hc as (_ & Hs & _). rewrite ident_read by (auto; apply Hr). intros E. injection E as <- _. apply Hr.
    - destruct Hc as (_ & Hp & _). now apply path_word.
    - intros E. discriminate E.
    - destruct Hc as (_ & Hc & _). rewrite <- app_assoc. apply (IHe 12%nat); auto. destruct (starts_number _); [|now apply ew_char].
      split; [reflexivity|]. exists (lit " "), (lit "." ++ x ++ z). split; [reflexivity|]. split; [repeat constructor; cbn; tauto|]. split; [reflexivity|now left].
    - destruct Hc as (_ & Hc & _). rewrite <- !app_assoc. apply (IHe1 12%nat); auto. now apply ew_char.
    - destruct l as [|o args]; [destruct Hc as (_ & _ & [])|]. destruct Hc as (_ & _ & Hc & _). rewrite <- !app_assoc. inversion H as [|? ? Ho _]; subst. apply (Ho 10%nat); auto. now apply ew_char.
    - destruct Hc.
    - destruct Hc as (_ & Hc & _). rewrite <- app_assoc. intros E. exfalso. destruct Hc as [<-|[<-|[]]]; discriminate E.
    - destruct Hc as (p & Ho & _ & Hc & _). rewrite <- !app_assoc. apply (IHe1 p); auto. eapply ew_op; eauto.
    - destruct Hc as (_ & Ho & Hl & _). destruct l as [l|].
      + rewrite <- !app_assoc. apply (H 1%nat); auto. split; [reflexivity|]. exists (lit " "), (o ++ match r with Some e => lit " " ++ text e | None => [] end ++ z).
        split; [reflexivity|]. split; [repeat constructor; cbn; tauto|]. destruct Ho as [<-|[<-|[]]]; (split; [reflexivity|now left]).
      + cbn [app]. intros E. exfalso. destruct Ho as [<-|[<-|[]]]; discriminate E.
    - intros E. discriminate E.
    - intros E. discriminate E.
    - destruct Hc as (_ & Hc & _). rewrite <- !app_assoc. apply (IHe 12%nat); auto. now apply ew_char.
    - destruct Hc as (_ & Hp & _). rewrite <- !app_assoc. apply path_word; auto. now apply ew_char.
    - destruct Hc as (_ & Hc). rewrite <- !app_assoc. apply (IHe 12%nat); auto. now apply ew_char.
    - destruct Hc.
  Qed.

  (** A positional argument is not taken for a named one. *)
  Lemma eq_no n r : noteq r -> is_perr ((pws (pchar 61) ;;; (v <- pe (15 + n) NtParse ;; pret v)) r).
  Proof.
    intros (b & y & -> & Hb & Hy & K). destruct K as [K|(z & ->)].
    - apply pb_perr, pws_perr; auto. rewrite pchar_no by auto. exact (perr_i _ _).
    - unfold pbind at 1. pose proof (pws_char 61 b [] (61 :: z) Hb ltac:(constructor) eq_refl eq_refl) as P. cbn [app] in P. rewrite P. apply pb_perr.
      change (15 + n)%nat with (S (14 + n)). rewrite pe_parse. unfold por, pmap. destruct (range_no lc (14 + n) (61 :: z) eq_refl eq_refl) as (e & m & ->). apply pb_perr.
      destruct (bad_start lc 1 n (61 :: z) ltac:(lia)) as (e' & m' & E'); [|change (lp lc 1 (15 - 1 + n)) with (pe (14 + n) NtOr) in E'; rewrite E'; exact (perr_i _ _)].
      repeat split. intros K. cbn in K. intuition discriminate.
  Qed.
  Lemma named_no n e r : canon 0 e -> ew r -> is_perr (pe (S (15 + n)) NtNamed (text e ++ r)).
  Proof.
    intros Hc Hr. change (pe (S (15 + n)) NtNamed) with (n0 <- identifier ;; (pws (pchar 61) ;;; (v <- pe (15 + n) NtParse ;; pret (n0, v)))). unfold pbind at 1.
    assert (G : forall i, (exists j w, identifier i = POk j w) \/ is_perr (identifier i)).
    { clear. intros i. unfold identifier, recognize, pbind, split_at_position1, opt. destruct (span _ i) as [[|c u] r]; [right; exact (perr_i _ _)|].
      left. destruct (span _ r) as [[|d u'] r']; eauto. }
    destruct (G (text e ++ r)) as [(j & w & E)|(e' & m & E)]; rewrite E; [|exact (perr_i _ _)].
    pose proof (first_word e 0 r w j Hc Hr E) as K. apply (eq_no n) in K. revert K. unfold pbind. destruct (pws (pchar 61) j) as [j' x|e' m|e' m|].
    - destruct (pe (15 + n) NtParse j') as [j'' x'|e' m|e' m|]; intros (? & ? & ?); try discriminate. exact (perr_i _ _).
    - intros _. exact (perr_i _ _).
    - intros (? & ? & ?). discriminate.
    - intros (? & ? & ?). discriminate.
  Qed.

  Inductive chain {S X} (f : X -> str) (p : S -> P (S * X)) : S -> list X -> Prop :=
  | ch_nil st : chain f p st []
  | ch_cons st e l st' : (forall b s, blanks b -> (exists t, s = 41 :: t \/ s = 44 :: t) -> p st (b ++ f e ++ s) = POk s (st', e)) -> chain f p st' l -> chain f p st (e :: l).
  Definition tail_of {X} (f : X -> str) (l : list X) : str := concat (map (fun y => lit ", " ++ y) (map f l)).
  Lemma tail_hd {X} (f : X -> str) l rest : exists t, tail_of f l ++ 41 :: rest = 41 :: t \/ tail_of f l ++ 41 :: rest = 44 :: t.
  Proof. clear lc. destruct l; cbn [tail_of map concat]; eexists; [left|right]; reflexivity. Qed.
  Lemma chain_read {S X} (f : X -> str) (p : S -> P (S * X)) st l rest : chain f p st l -> is_perr (p st (41 :: rest)) ->
    separated_list0_st (pchar 44) p st (sep_by (lit ", ") (map f l) ++ 41 :: rest) = POk (41 :: rest) l.
  Proof.
    intros H E. clear lc.
    assert (G : forall l st n, chain f p st l -> (length (tail_of f l ++ 41%N :: rest) < n)%nat -> sep_loop n (pchar 44) p st (tail_of f l ++ 41 :: rest) = POk (41 :: rest) l).
    { clear. induction l as [|e l IH]; intros st n H Hn; (destruct n as [|n]; [lia|]).
      - cbn [tail_of map concat app sep_loop]. rewrite pchar_no; reflexivity.
      - inversion H as [|? ? ? st' He Hl]; subst. unfold tail_of in *. cbn [map concat]. rewrite <- !app_assoc. cbn [map concat] in Hn. rewrite <- !app_assoc in Hn.
        change (lit ", " ++ ?x) with (44 :: 32 :: x) in *. cbn [sep_loop]. 
        set (t := f e ++ concat (map (fun y : list N => lit ", " ++ y) (map f l)) ++ 41 :: rest) in *.
        change (pchar 44 (44 :: 32 :: t)) with (POk (32 :: t) 44). cbv iota.
        destruct (Nat.eqb_spec (length (32 :: t)) (length (44 :: 32 :: t))) as [Y|_]; [cbn in Y; lia|].
        unfold t. change (32 :: f e ++ ?x) with ([32] ++ f e ++ x).
        rewrite (He [32] _); [|repeat constructor|apply (tail_hd f l rest)].
        change (fun y : list N => 44 :: 32 :: y) with (fun y : list N => lit ", " ++ y) in *. rewrite (IH st' n Hl); [reflexivity|]. unfold t in Hn. cbn [length] in Hn. rewrite app_length in Hn. lia. }
    inversion H as [|? e l' st' He Hl]; subst.
    - cbn [map sep_by app]. unfold separated_list0_st. destruct E as (x & m & ->). reflexivity.
    - cbn [map]. rewrite sep_cons, <- app_assoc. change (concat (map (fun y => lit ", " ++ y) (map f l'))) with (tail_of f l'). unfold separated_list0_st.
      pose proof (He [] (tail_of f l' ++ 41 :: rest) ltac:(constructor) (tail_hd f l' rest)) as F. cbn [app] in F. rewrite F.
      rewrite (G _ st'); [reflexivity|auto|lia].
  Qed.
  Lemma hd_ends s : (exists t, s = 41 :: t \/ s = 44 :: t) -> ends s /\ ew s.
  Proof.
    clear lc. intros (t & [->| ->]); (split; [apply stop_closers; cbn; auto|apply ew_char; try reflexivity; discriminate]).
  Qed.
  Lemma mem_str_no n l : ~ In n l -> mem_str n l = false.
  Proof. clear lc. intros H. destruct (mem_str n l) eqn:E; auto. apply mem_str_In in E. tauto. Qed.
  Lemma pws_of {A} (p : P A) b i b' r a : blanks b -> nohd is_ws i -> blanks b' -> nohd is_ws r -> p i = POk (b' ++ r) a -> pws p (b ++ i) = POk r a.
  Proof. clear lc. intros Hb Hi Hb' Hr E. unfold pws, pbind. rewrite skip_blanks_exact by auto. rewrite E, skip_blanks_exact by auto. reflexivity. Qed.
  Lemma macro_args n start pos named rest :
    Forall (fun e => canon 0 e /\ (need e <= S n)%nat) pos -> Forall (fun x => ident (fst x) /\ canon 0 (snd x) /\ (need (snd x) <= n)%nat) named -> NoDup (map fst named) ->
    separated_list0_st (pchar 44) (fun names => pws (argument (pe (16 + n) NtNamed) (pe (16 + n) NtParse) start names)) []
      (sep_by (lit ", ") (map text (pos ++ map (fun x => NamedArgument (fst x) (snd x)) named)) ++ 41 :: rest) =
      POk (41 :: rest) (pos ++ map (fun x => NamedArgument (fst x) (snd x)) named).
  Proof.
    intros Hp Hn Hd. apply chain_read.
    - assert (N : forall named seen, Forall (fun x => ident (fst x) /\ canon 0 (snd x) /\ (need (snd x) <= n)%nat) named -> NoDup (map fst named) ->
        (forall x, In x (map fst named) -> ~ In x seen) -> chain text (fun names => pws (argument (pe (16 + n) NtNamed) (pe (16 + n) NtParse) start names)) seen (map (fun x => NamedArgument (fst x) (snd x)) named)).
      { clear. induction named as [|[x e] named IH]; intros seen H D S; cbn [map]; [constructor|]. inversion H as [|? ? (Hx & Hc & L) H']; subst. cbn [map fst snd] in *. inversion D as [|? ? D1 D2]; subst.
        apply ch_cons with (st' := x :: seen).
        - intros b s Hb Hs. apply hd_ends in Hs as (Hs & _). destruct (good0_all e Hc n [] s L ltac:(constructor) (or_introl Hs)) as (b' & B' & E). cbn [app] in E.
          eapply pws_of; [auto| |exact B'|now apply ends_ws|].
          + cbn [text]. destruct (ident_hd x Hx) as (c & t & -> & C). cbn. now apply id_not_ws.
          + unfold argument. change (pe (16 + n) NtNamed) with (n0 <- identifier ;; (pws (pchar 61) ;;; (v <- pe (15 + n) NtParse ;; pret (n0, v)))).
            cbn [text]. rewrite <- !app_assoc. unfold pbind at 1. rewrite ident_read by (auto; reflexivity). unfold pbind at 1.
            pose proof (pws_char 61 [] [] (text e ++ s) ltac:(constructor) ltac:(constructor) ltac:(eapply canon_ws; eauto) eq_refl) as P. cbn [app] in P.
            change (lit "=" ++ text e ++ s) with (61 :: text e ++ s). rewrite P. unfold pbind. rewrite E. unfold pret. rewrite mem_str_no; [reflexivity|]. apply S. now left.
        - apply IH; auto. intros y Hy [<-|K]; [tauto|]. apply (S y); auto. now right. }
      induction Hp as [|e pos (Hc & L) Hp IH]; cbn [app]; [apply N; auto|]. apply ch_cons with (st' := []); [|exact IH].
      intros b s Hb Hs. apply hd_ends in Hs as (Hs & Hw). destruct (good0_all e Hc (S n) [] s L ltac:(constructor) (or_introl Hs)) as (b' & B' & E). cbn [app] in E.
      eapply pws_of; [auto|eapply canon_ws; eauto|exact B'|now apply ends_ws|]. unfold argument. destruct (named_no n e s Hc Hw) as (x & m & K).
      change (S (15 + n))%nat with (16 + n)%nat in K. rewrite K. change (15 + S n)%nat with (16 + n)%nat in E. rewrite E. reflexivity.
    - apply pws_perr0; [reflexivity|]. unfold argument. change (pe (16 + n) NtNamed) with (n0 <- identifier ;; (pws (pchar 61) ;;; (v <- pe (15 + n) NtParse ;; pret (n0, v)))).
      destruct (pb_perr identifier (fun n0 => (pws (pchar 61) ;;; (v <- pe (15 + n) NtParse ;; pret (n0, v)))) (41 :: rest) ltac:(apply WriteTarget.identifier_no; reflexivity)) as (x & m & ->).
      destruct (parse_no lc (S n) (41 :: rest) (stop_closers 41 ltac:(cbn; auto))) as (y & m' & E). change (15 + S n)%nat with (16 + n)%nat in E. rewrite E. exact (perr_i _ _).
  Qed.
  Lemma named_hd l : forall pos named rest, l = pos ++ map (fun x => NamedArgument (fst x) (snd x)) named -> Forall (canon 0) pos -> Forall (fun x : str * expr => ident (fst x)) named ->
    nohd is_ws (sep_by (lit ", ") (map text l) ++ 41 :: rest).
  Proof.
    intros pos named rest -> Hp Hn. destruct pos as [|e pos]; [|cbn [app map]; rewrite sep_cons, <- app_assoc; inversion Hp; subst; eapply canon_ws; eauto].
    destruct named as [|[x e] named]; [reflexivity|]. cbn [app map fst snd text]. rewrite sep_cons, <- !app_assoc. inversion Hn as [|? ? Hx _]; subst. cbn [fst] in Hx.
    destruct (ident_hd x Hx) as (c & t & -> & C). cbn. now apply id_not_ws.
  Qed.
  Lemma eargs_macro s l rest : (17 + level s <= 128)%nat -> args_fit lc (level s) l -> eargs lc true s (args_text l ++ rest) = (POk rest l, s).
  Proof.
    intros L (pos & named & E & Hp & Hn & Hd). unfold eargs, with_level, expr_arguments. f_equal. remember (MAX_DEPTH - level s - 17)%nat as n eqn:En.
      replace (MAX_DEPTH - level s)%nat with (S (16 + n)) by (unfold MAX_DEPTH in *; lia).
      assert (K : forall e, arg_fits lc (level s) e -> canon 0 e /\ (need e <= n)%nat).
      { intros e (H1 & H2). split; auto. unfold MAX_DEPTH in *. lia. }
      unfold args_text. rewrite <- !app_assoc. change (lit ")" ++ rest) with (41 :: rest).
      set (start := lit "(" ++ _).
      change (pe (S (16 + n)) (NtArguments true) start) with ((pws (pchar 40) ;;;
             cut (l <- separated_list0_st (pchar 44) (fun names => pws (argument (pe (16 + n) NtNamed) (pe (16 + n) NtParse) start names)) [] ;;
                  (opt (pws (pchar 44)) ;;; (pchar 41 ;;; pret l)))) start).
      eapply pb_ok.
      { apply (pws_char 40 [] [] (sep_by (lit ", ") (map text l) ++ 41 :: rest)); [constructor|constructor| |reflexivity].
        eapply named_hd; [exact E| |]; [revert Hp; apply Forall_impl; intros; now apply K|]. revert Hn. apply Forall_impl. tauto. }
      unfold cut. rewrite (pb_ok _ _ _ (41 :: rest) l (POk rest l)); [reflexivity| |].
      { rewrite E. apply macro_args; auto.
        - revert Hp. apply Forall_impl. intros e He. destruct (K e He). split; auto.
        - revert Hn. apply Forall_impl. intros [x e] (Hx & He). destruct (K e He). auto. }
      unfold pbind at 1. rewrite opt_comma by (cbn; auto). reflexivity.
  Qed.

  Lemma eargs_none k s i b : (level s < 128)%nat -> blanks b -> nohd is_ws i -> nohd (N.eqb 40) i -> exists e m, eargs lc k s (b ++ i) = (PErr e m, s).
  Proof.
    intros L Hb H1 H2. unfold eargs, with_level, expr_arguments. replace (MAX_DEPTH - level s)%nat with (S (127 - level s)) by (unfold MAX_DEPTH; lia).
    assert (E : forall l, is_perr ((pws (pchar 40) ;;; l : P (list expr)) (b ++ i))).
    { intros l. apply pb_perr, pws_perr; auto. rewrite pchar_no by auto. exact (perr_i _ _). }
    destruct k; cbn [ParseExpr.pe]; match goal with |- context [pbind (pws (pchar 40)) (fun _ => ?l)] => destruct (E l) as (e & m & ->) end; eauto.
  Qed.
  Lemma filter_args s l rest : (16 + level s <= 128)%nat -> Forall (fun e => canon 0 e /\ (need e + 16 + level s <= 128)%nat) l -> expr_arguments lc (level s) false (args_text l ++ rest) = POk rest l.
  Proof.
    intros L H. unfold expr_arguments, args_text. replace (MAX_DEPTH - level s)%nat with (16 + (112 - level s))%nat by (unfold MAX_DEPTH; lia). rewrite <- !app_assoc. apply args_read.
    - revert H. apply Forall_impl. tauto.
    - revert H. apply Forall_impl. intros e (H & _). now apply good0_all.
    - revert H. apply Forall_impl. intros e (_ & H). lia.
  Qed.
End Expr.
