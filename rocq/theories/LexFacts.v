(** * Facts about the lexical parsers. *)
From Verif Require Import Base Nom Ws Lex NomFacts.
From Coq Require Import ZifyBool ZifyNat ZifyN.
Local Open Scope N_scope.

Create HintDb good.
Global Hint Resolve good_ret good_perr good_eof good_satisfy good_pchar good_one_of good_tag_true good_take_till good_split1
  good_take_while_m_n good_fail_here : good.

(** Close goals [good w p (fun _ => True)] compositionally. *)
Ltac good_true :=
  repeat first
    [ solve [eauto with good]
    | apply good_seq
    | eapply good_bind; [good_true|intros ? _]
    | apply good_value; [|exact I]
    | eapply good_map; [|intros; exact I]
    | apply good_cut | apply good_opt_true | apply good_or | apply good_not | apply good_peek | apply good_recognize
    | apply good_many0_true | apply good_many1_true ].

Lemma good_skip_blanks w : good w skip_blanks (fun _ => True).
Proof. apply good_take_till. Qed.
Global Hint Resolve good_skip_blanks : good.
Lemma good_pws {A} w (p : P A) Q : good w p Q -> good w (pws p) Q.
Proof.
  intros H. unfold pws. apply good_seq; [auto with good|]. eapply good_bind; [exact H|]. intros a Ha.
  apply good_seq; [auto with good|]. now apply good_ret.
Qed.
Lemma good_skip_till {A} w (p : P A) (Q : A -> Prop) : good w p Q -> good w (skip_till p) (fun x => suffix (fst x) w /\ Q (snd x)).
Proof.
  intros Hp i. induction i as [|c i IH]; intros Hi; cbn; pose proof (Hp _ Hi) as H.
  - destruct (p []) as [r a|e m|e m|]; auto. cbn. destruct H as [H1 H2]. repeat split; auto. eapply suffix_trans; eauto.
  - destruct (p (c :: i)) as [r a|e m|e m|]; auto.
    + cbn. destruct H as [H1 H2]. repeat split; auto. eapply suffix_trans; eauto.
    + assert (Hi' : suffix i w) by (eapply suffix_trans; [|exact Hi]; auto). specialize (IH Hi').
      destruct (skip_till p i) as [r a|e' m'|e' m'|]; auto. destruct IH. auto.
Qed.
Lemma good_identifier w : good w identifier (fun _ => True).
Proof. unfold identifier. good_true. Qed.
Global Hint Resolve good_identifier : good.
Lemma good_keyword w k : good w (keyword k) (fun s => s = k).
Proof.
  intros i Hi. unfold keyword. pose proof (good_identifier w i Hi) as H. destruct (identifier i) as [r a|e m|e m|]; auto.
  destruct (str_eqb k a) eqn:E; auto. apply str_eqb_eq in E. intuition.
Qed.
Lemma good_keyword_true w k : good w (keyword k) (fun _ => True).
Proof. eapply good_true, good_keyword. Qed.
Global Hint Resolve good_keyword_true : good.
Lemma good_bool_lit w : good w bool_lit (fun _ => True).
Proof. unfold bool_lit. good_true. Qed.
Lemma good_separated_digits w r b : good w (separated_digits r b) (fun _ => True).
Proof. unfold separated_digits. destruct b; good_true. Qed.
Global Hint Resolve good_bool_lit good_separated_digits : good.
Lemma good_integer_suffix w : good w integer_suffix (fun _ => True).
Proof. unfold integer_suffix. good_true. Qed.
Lemma good_float_suffix w : good w float_suffix (fun _ => True).
Proof. unfold float_suffix. good_true. Qed.
Global Hint Resolve good_integer_suffix good_float_suffix : good.
Lemma good_num_lit_true w : good w num_lit (fun _ => True).
Proof. unfold num_lit. good_true. Qed.
Lemma escaped_from_suffix q f i r : escaped_from q f i = Some r -> suffix r i.
Proof.
  assert (H : forall n i f r, (length i <= n)%nat -> escaped_from q f i = Some r -> suffix r i).
  { clear. induction n as [|n IH]; intros [|c i] f r Hn; cbn in *; try (intros [= <-]; now auto); try lia.
    destruct (c =? 92).
    - destruct i as [|x i]; try discriminate. cbn in Hn. intros H. apply IH in H; [|lia]. auto.
    - destruct (c =? q).
      + destruct f; try discriminate. intros [= <-]. auto.
      + intros H. apply IH in H; [|lia]. auto. }
  intros E. eapply H; eauto.
Qed.
Lemma good_escaped w q : good w (escaped q) (fun _ => True).
Proof. intros i Hi. unfold escaped. destruct (escaped_from q true i) eqn:E; auto. apply escaped_from_suffix in E. auto. Qed.
Global Hint Resolve good_escaped : good.
Lemma good_str_lit_true w : good w str_lit (fun _ => True).
Proof. unfold str_lit. good_true. Qed.
Lemma good_char_parse w : good w char_parse (fun _ => True).
Proof.
  assert (G : good w (pchar 92 ;;;
       (value CEscaped (pchar 110) <|> value CEscaped (pchar 114) <|> value CEscaped (pchar 116) <|> value CEscaped (pchar 92) <|>
        value CEscaped (pchar 48) <|> value CEscaped (pchar 39) <|> value CEscaped (pchar 34) <|>
        (pchar 120 ;;; pmap CAscii (take_while_m_n 2 2 is_hex)) <|>
        (tag (lit "u{") ;;; (s <- take_while_m_n 1 6 is_hex ;; (pchar 125 ;;; pret (CUnicode s)))))) (fun _ => True)) by good_true.
  intros i Hi. specialize (G i Hi). destruct i as [|x [|y i]]; auto. cbn. auto.
Qed.
Lemma good_char_lit_true w : good w char_lit (fun _ => True).
Proof.
  assert (G : good w (pchar 39 ;;; (s <- opt (escaped 39) ;; (pchar 39 ;;; pret s))) (fun _ => True)) by good_true.
  intros i Hi. unfold char_lit. specialize (G i Hi). destruct ((pchar 39 ;;; _) i) as [r [s|]|e m|e m|]; auto.
  pose proof (good_char_parse s s (suffix_refl s)) as H. destruct (char_parse s) as [[|x r'] k|e m|e m|]; auto.
  destruct k; auto; destruct (_ <? _); auto.
Qed.
Lemma good_path_or_identifier w lc : good w (path_or_identifier lc) (fun _ => True).
Proof.
  unfold path_or_identifier. eapply good_bind; [apply good_pws; good_true|]. intros root _.
  eapply good_bind; [good_true|]. intros start _. eapply good_bind; [apply good_opt_true, good_many1_true|].
  - apply good_seq; [apply good_pws|]; good_true.
  - intros rest _. good_true.
Qed.
Global Hint Resolve good_num_lit_true good_str_lit_true good_char_lit_true good_path_or_identifier : good.
