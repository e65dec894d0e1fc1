(** * The expression parser: positions, termination, and well-formed results. *)
From Verif Require Import Base Nom Ws Ast Lex ParseExpr NomFacts LexFacts LitSpec LitFacts ParseSpec.
From Coq Require Import ZifyBool ZifyNat ZifyN.
Local Open Scope N_scope.

Lemma good_refine {A} w (p : P A) Q (R : A -> Prop) : good w p Q -> (forall i r a, p i = POk r a -> R a) -> good w p R.
Proof. intros H HR i Hi. specialize (H i Hi). destruct (p i) eqn:E; auto. destruct H. eauto. Qed.

Lemma good_num_lit w : good w num_lit signed_number.
Proof. eapply good_refine; [apply good_num_lit_true|]. intros i r a H. now apply num_lit_valid in H. Qed.
Lemma good_str_lit w : good w str_lit (quoted 34).
Proof. eapply good_refine; [apply good_str_lit_true|]. intros i r a H. now apply str_lit_valid in H. Qed.
Lemma good_char_lit w : good w char_lit char_accepted.
Proof. eapply good_refine; [apply good_char_lit_true|]. intros i r a H. now apply char_lit_valid in H. Qed.
Lemma recog_split1 f : recog_id (split_at_position1 f) (fun s => s <> [] /\ Forall (fun c => f c = false) s).
Proof.
  intros i r a. unfold split_at_position1. pose proof (span_app (fun c => negb (f c)) i) as H.
  pose proof (span_all (fun c => negb (f c)) i) as H2. destruct (span _ i) as [[|c b] q]; cbn [fst snd] in *; [discriminate|].
  intros [= <- <-]. split; [exact H|]. split; [discriminate|]. eapply Forall_impl; [|exact H2]. intros x Hx. now apply negb_true_iff in Hx.
Qed.
Lemma id_start_spec c : id_start c = true -> ident_start c.
Proof. unfold id_start, ident_start, is_upper, is_lower. lia. Qed.
Lemma id_tail_spec c : id_tail c = true -> ident_start c \/ 48 <= c <= 57.
Proof. unfold id_tail. intros H. apply orb_true_iff in H. destruct H as [H|H]; [left; now apply id_start_spec|right; unfold is_dec in H; lia]. Qed.
Lemma identifier_spec : recog_id identifier ident.
Proof.
  unfold identifier. apply recog_recognize. eapply recog_weaken.
  - apply recog_bind; [apply recog_of_id, recog_split1|]. intros _. apply recog_opt, recog_of_id, recog_split1.
  - intros s (a & b & -> & [Ha1 Ha2] & Hb). destruct a as [|c a]; [congruence|]. inversion Ha2 as [|? ? Hc Ha3]; subst.
    exists c, (a ++ b). split; [reflexivity|]. split; [apply id_start_spec; now apply negb_false_iff in Hc|]. apply Forall_app. split.
    + eapply Forall_impl; [|exact Ha3]. intros x Hx. left. apply id_start_spec. now apply negb_false_iff in Hx.
    + destruct Hb as [->|[_ Hb]]; [constructor|]. eapply Forall_impl; [|exact Hb]. intros x Hx. apply id_tail_spec. now apply negb_false_iff in Hx.
Qed.
Lemma good_ident w : good w identifier ident.
Proof. eapply good_refine; [apply good_identifier|]. intros i r a H. now apply identifier_spec in H. Qed.
Lemma good_poi w lc : good w (path_or_identifier lc) (fun x => match x with inl p => path_ok p | inr s => ident s end).
Proof.
  unfold path_or_identifier. eapply good_bind; [apply good_pws; apply good_opt_true; auto with good|]. intros root _.
  eapply good_bind; [apply good_ident|]. intros start Hs. eapply good_bind; [apply good_opt, good_many1; apply good_seq; [apply good_pws; auto with good|apply good_ident]|].
  intros rest Hr. set (rest' := match rest with Some l => l | None => [] end).
  assert (Hr' : Forall ident rest') by (destruct rest; subst rest'; auto). apply good_ret.
  destruct root.
  - exists (start :: rest'). repeat split; [discriminate|auto|auto].
  - destruct rest' as [|y l]; [destruct start as [|c st]; [auto|destruct (lc c); auto]|].
    + exists [c :: st]. repeat split; [discriminate|auto|auto].
    + exists (start :: y :: l). repeat split; [discriminate|auto|auto].
Qed.
(** Well-formed, and at least as strong as [k]. *)
Definition wk (k : nat) (e : expr) : Prop := wf_expr e /\ (k <= binds e)%nat.
Lemma good_pvb w lc : good w (path_var_bool lc) (wk 13).
Proof.
  unfold path_var_bool. eapply good_map; [apply good_poi|]. intros [p|s] H; [split; [now constructor|cbn; lia]|].
  destruct (str_eqb s (lit "true")) eqn:E1; cbn [orb].
  - apply str_eqb_eq in E1. subst. split; [|cbn; lia]. constructor. cbn. auto.
  - destruct (str_eqb s (lit "false")) eqn:E2; [|split; [now constructor|cbn; lia]]. apply str_eqb_eq in E2. subst. split; [|cbn; lia]. constructor. cbn. auto.
Qed.

Lemma find_prec_eq op p : In (op, p) precedence -> find_prec op precedence = p.
Proof. intros H. cbn in H. repeat (destruct H as [H|H]; [injection H as <- <-; reflexivity|]). contradiction. Qed.
Lemma good_layer w p (ops : P str) (inner : P expr) :
  good w ops (fun o => In (o, p) precedence) -> good w inner (wk (S p)) -> good w (layer ops inner) (wk p).
Proof.
  intros Ho Hi. unfold layer. eapply good_bind; [exact Hi|]. intros l Hl.
  eapply good_bind.
  - apply (good_many0 w _ (fun x => In (fst x, p) precedence /\ wk (S p) (snd x))). eapply good_bind; [apply good_pws, Ho|]. intros op Hop.
    eapply good_bind; [exact Hi|]. intros r Hr. apply good_ret. auto.
  - intros right Hr. apply good_ret. assert (Hl' : wk p l) by (destruct Hl; split; [auto|lia]). clear Hl. revert l Hl'.
    induction Hr as [|[op r] right [H1 H2] Hr IH]; intros l Hl; cbn [fold_left]; auto.
    apply IH. cbn [fst snd] in *. destruct Hl, H2. split; [eapply wf_binop; eauto|]. cbn [binds]. rewrite (find_prec_eq op p H1). lia.
Qed.
Lemma good_tag_op w p t : In (t, p) precedence -> good w (tag t) (fun o => In (o, p) precedence).
Proof. intros H. eapply good_weaken; [apply good_tag|]. intros a ->. exact H. Qed.

Lemma np_scan_suffix n b e i m r : np_scan n b e i = (m, Some r) -> suffix r i.
Proof.
  revert n b e. induction i as [|c i IH]; intros n b e; cbn [np_scan]; [discriminate|].
  repeat match goal with |- context [if ?x then _ else _] => destruct x end; intros H;
    solve [eapply suffix_cons, IH; exact H | injection H as <- <-; apply suffix_refl].
Qed.
Lemma good_nested w : good w nested_parenthesis (fun _ => True).
Proof.
  intros i Hi. unfold nested_parenthesis. destruct (np_scan 0 false false i) as [n o] eqn:E. destruct (n =? 0); auto.
  destruct o as [r|]; auto. apply np_scan_suffix in E. auto.
Qed.

Definition wf_suffix (s : suffix_kind) : Prop :=
  match s with SAttr a => ident a \/ signed_number a | SIndex e => wf_expr e | SCall l => Forall wf_expr l | _ => True end.
Lemma good_suffix_macro w : good w suffix_macro wf_suffix.
Proof.
  unfold suffix_macro. apply good_seq; [apply good_seq; [apply good_pws|]; auto with good|]. apply good_cut.
  eapply good_bind; [eapply good_map with (R := wf_suffix); [apply good_recognize, good_nested|cbn; auto]|].
  intros a Ha. apply good_seq; [auto with good|]. now apply good_ret.
Qed.
Lemma good_suffix_attr w : good w suffix_attr wf_suffix.
Proof.
  unfold suffix_attr. eapply good_map; [|intros a Ha; exact Ha].
  apply good_seq; [apply good_pws, good_seq; [|apply good_not]; auto with good|]. apply good_cut.
  apply good_or; [eapply good_weaken; [apply good_num_lit|cbn; auto]|eapply good_weaken; [apply good_ident|cbn; auto]].
Qed.
Lemma good_suffix_try w : good w suffix_try wf_suffix.
Proof. unfold suffix_try. apply good_value; [|exact I]. apply good_seq; auto with good. Qed.

Lemma good_suffix_loop (u : bool) w suf : (forall v, good v suf wf_suffix) -> shrinks suf ->
  forall n e i, suffix i w -> (length i < n)%nat -> (u = true -> wk 12 e) ->
  match suffix_loop n suf e i with
  | POk r a => suffix r i /\ (u = true -> wk 12 a)
  | PErr e _ | PFail e _ => suffix e w
  | PStuck => False
  end.
Proof.
  intros Hg Hs. induction n as [|n IH]; intros e i Hi Hn He; [lia|]. cbn. unfold opt.
  pose proof (Hg w i Hi) as H. destruct (suf i) as [j s|e' m|e' m|] eqn:E; auto.
  destruct H as [Hj Hw]. pose proof (Hs _ _ _ E) as L.
  assert (Hjw : suffix j w) by (eapply suffix_trans; eauto).
  assert (K : forall e', (u = true -> wk 12 e') -> match suffix_loop n suf e' j with
    | POk r a => suffix r i /\ (u = true -> wk 12 a) | PErr e _ | PFail e _ => suffix e w | PStuck => False end).
  { intros e' He'. specialize (IH e' j Hjw ltac:(lia) He'). destruct (suffix_loop n suf e' j); auto. destruct IH. split; auto. eapply suffix_trans; eauto. }
  destruct s as [a|x|l|m|]; cbn in Hw.
  - apply K. intros U. destruct (He U) as [He' Hb]. split; [now constructor|cbn; lia].
  - apply K. intros U. destruct (He U) as [He' Hb]. split; [now constructor|cbn; lia].
  - apply K. intros U. destruct (He U) as [He' Hb]. split; [now constructor|cbn; lia].
  - destruct e; auto; apply K; intros U; destruct (He U) as [He' Hb]; (split; [|cbn; lia]); constructor; inversion He'; subst.
    + exists [s]. repeat split; [discriminate|auto|auto].
    + assumption.
  - apply K. intros U. destruct (He U) as [He' Hb]. split; [now constructor|cbn; lia].
Qed.
Lemma many0_ends {A} (p : P A) i r l : many0 p i = POk r l -> exists e m, p r = PErr e m.
Proof.
  unfold many0. generalize (S (length i)) as n. intros n. revert i r l. induction n as [|n IH]; intros i r l; cbn [many0_fuel]; [discriminate|].
  destruct (p i) as [j a|e m|e m|] eqn:E; try discriminate.
  - destruct (Nat.eqb _ _); [discriminate|]. destruct (many0_fuel n p j) as [r' l'|e m|e m|] eqn:E2; try discriminate. intros [= <- _]. eapply IH, E2.
  - intros [= <- _]. eauto.
Qed.
Definition no_minus (i : str) : Prop := forall t, i <> 45 :: t.
Lemma number_no_minus i r s : no_minus i -> num_lit i = POk r s -> rust_number s.
Proof. intros H E. apply num_lit_valid in E as [-> [E|(t & -> & E)]]; [exact E|]. now elim (H (t ++ r)). Qed.

Lemma good_filter w args : good w args (Forall wf_expr) ->
  good w (filter args) (fun x => ident (fst x) /\ match snd x with Some l => Forall wf_expr l | None => True end).
Proof.
  intros H. unfold filter. apply good_seq; [auto with good|]. eapply good_bind; [apply good_pws, good_ident|]. intros n Hn.
  eapply good_bind; [apply good_opt, H|]. intros o Ho. apply good_ret. auto.
Qed.

Definition args_ok (names : list str) (l : list expr) : Prop :=
  exists pos named, l = pos ++ map (fun x => NamedArgument (fst x) (snd x)) named /\ (names <> [] -> pos = []) /\
    Forall wf_expr pos /\ Forall (fun x => ident (fst x) /\ wf_expr (snd x)) named /\ NoDup (map fst named) /\
    (forall n, In n (map fst named) -> ~ In n names).
Lemma wf_not_named e : wf_expr e -> is_named e = false.
Proof. now destruct 1. Qed.
Lemma good_argument w named parse start names :
  suffix start w -> good w named (fun x => ident (fst x) /\ wf_expr (snd x)) -> good w parse wf_expr ->
  good w (argument named parse start names) (fun x => True /\ forall l, args_ok (fst x) l -> args_ok names (snd x :: l)).
Proof.
  intros Hst Hn Hp i Hi. unfold argument. pose proof (Hn i Hi) as H1. pose proof (Hp i Hi) as H2.
  destruct (named i) as [j [n v]|e m|e m|]; auto.
  - destruct (mem_str n names) eqn:E; auto. destruct H1 as [Hj [Hn1 Hv]]. cbn [fst snd] in *. repeat split; auto.
    intros l (pos & nm & -> & Hpos & Hw1 & Hw2 & Hnd & Hni). rewrite Hpos in * by discriminate. cbn.
    exists [], ((n, v) :: nm). repeat split; auto.
    + cbn. constructor; auto. intros Hin. apply (Hni n Hin). now left.
    + cbn. intros x [<-|Hx] Hin; [apply mem_str_In in Hin; congruence|]. apply (Hni x Hx). now right.
  - destruct (parse i) as [j e'|e' m'|e' m'|]; auto. destruct H2 as [Hj He]. rewrite (wf_not_named _ He).
    destruct names as [|n names]; cbn [nonempty andb negb]; auto. cbn [fst snd]. repeat split; auto.
    intros l (pos & nm & -> & Hpos & Hw1 & Hw2 & Hnd & Hni). exists (e' :: pos), nm. repeat split; auto. intros []. reflexivity.
Qed.

Definition nt_post (n : nt) : nt_res n -> Prop :=
  match n as n return nt_res n -> Prop with
  | NtCall | NtArguments false => Forall wf_expr
  | NtArguments true => call_args
  | NtNamed => fun x => ident (fst x) /\ wf_expr (snd x)
  | NtOr => wk 1 | NtAnd => wk 2 | NtCompare => wk 3 | NtBor => wk 4 | NtBxor => wk 5 | NtBand => wk 6 | NtShifts => wk 7
  | NtAddsub => wk 8 | NtMuldivmod => wk 9 | NtFiltered => wk 10 | NtPrefix => wk 11
  | NtSuffix | NtSingle => fun _ => True
  | NtGroup | NtArray => wk 13
  | _ => wf_expr
  end.

Section Expr.
  Variable is_lowercase : N -> bool.
  Lemma fold_right_unary ops e : Forall (fun o => In o unary_ops) ops -> wk 11 e -> wk 11 (fold_right Unary e ops).
  Proof. intros H He. induction H as [|o ops H H' [I1 I2]]; cbn [fold_right]; auto. split; [now constructor|cbn; lia]. Qed.

  Lemma shrinks_pws_pchar {B} c (k : N -> P B) : (forall a, nogrow (k a)) -> shrinks (pbind (pws (pchar c)) k).
  Proof.
    intros Hk. apply shrinks_bind_l; auto. unfold pws. apply shrinks_bind_r; [apply (good_nogrow _ (fun _ => True)); intros; apply good_skip_blanks|].
    intros _. apply shrinks_bind_l; [apply shrinks_pchar|]. intros a. apply (good_nogrow _ (fun _ => True)). intros v. apply good_seq; [auto with good|].
    apply good_ret. exact I.
  Qed.

  Lemma shrinks_pe_index r : (forall m v, (m < r)%nat -> good v (pe is_lowercase m NtParse) wf_expr) -> shrinks (pe is_lowercase r NtIndex).
  Proof.
    intros H. destruct r as [|r]; [intros j q a E; discriminate|]. cbn [pe]. apply shrinks_pws_pchar. intros a.
    apply (good_nogrow _ (fun _ => True)). intros v. apply good_cut. eapply good_bind; [apply good_pws, H; lia|]. intros x _. good_true.
  Qed.
  Definition args_body (named : P (str * expr)) (parse : P expr) (start : str) : P (list expr) :=
    cut (l <- separated_list0_st (pchar 44) (fun names => pws (argument named parse start names)) [] ;;
         (opt (pws (pchar 44)) ;;; (pchar 41 ;;; pret l))).
  Lemma good_args_body w named parse start : suffix start w ->
    good w named (fun x => ident (fst x) /\ wf_expr (snd x)) -> good w parse wf_expr ->
    good w (args_body named parse start) (args_ok []).
  Proof.
    intros Hst Hn Hp. unfold args_body. apply good_cut. eapply good_bind.
    - apply (good_separated_list0_st w (pchar 44) _ (fun _ => True) args_ok); auto with good.
      + intros names _. apply good_pws. now apply good_argument.
      + intros names _. exists [], []. repeat split; auto. constructor.
    - intros l Hl. apply good_seq; [apply good_opt_true, good_pws; auto with good|]. apply good_seq; [auto with good|]. now apply good_ret.
  Qed.
  Lemma args_ok_call l : args_ok [] l -> call_args l.
  Proof. intros (pos & nm & -> & _ & H1 & H2 & H3 & _). exists pos, nm. auto. Qed.
  Lemma pe_args r b : pe is_lowercase (S r) (NtArguments b) =
    fun start => (pws (pchar 40) ;;; args_body (if b then pe is_lowercase r NtNamed else perr) (pe is_lowercase r NtParse) start) start.
  Proof. reflexivity. Qed.
  Lemma shrinks_pe_args r b : (forall m n v, (m < r)%nat -> good v (pe is_lowercase m n) (nt_post n)) ->
    shrinks (pe is_lowercase r (NtArguments b)).
  Proof.
    intros H. destruct r as [|r]; [intros j q a E; discriminate|]. rewrite pe_args. intros i r' a E.
    apply pbind_inv in E. destruct E as (j & c & E1 & E2).
    assert (L : (length j < length i)%nat) by (apply (shrinks_pws_pchar 40 (fun _ => pret tt) ltac:(intros _ x y z [= <- _]; lia) i j tt); unfold pbind; now rewrite E1).
    assert (Hj : suffix j i) by (pose proof (good_pws i (pchar 40) _ (good_pchar i 40) i (suffix_refl i)) as K; rewrite E1 in K; tauto).
    pose proof (good_args_body i (if b then pe is_lowercase r NtNamed else perr) (pe is_lowercase r NtParse) i (suffix_refl i)) as G.
    assert (G1 : good i (if b then pe is_lowercase r NtNamed else perr) (fun x => ident (fst x) /\ wf_expr (snd x)))
      by (destruct b; [apply (H r NtNamed); lia|apply good_perr]).
    specialize (G G1 (H r NtParse i ltac:(lia)) j Hj). rewrite E2 in G. destruct G as [G _]. apply suffix_len in G. lia.
  Qed.
  Lemma shrinks_pe_call r : (forall m n v, (m < r)%nat -> good v (pe is_lowercase m n) (nt_post n)) -> shrinks (pe is_lowercase r NtCall).
  Proof. intros H. destruct r as [|r]; [intros j q a E; discriminate|]. cbn [pe]. apply shrinks_pe_args. intros. apply H. lia. Qed.
  (** Without named arguments nothing is named. *)
  Lemma good_args_false w r : good w (pe is_lowercase r NtParse) wf_expr ->
    good w (pe is_lowercase (S r) (NtArguments false)) (Forall wf_expr).
  Proof.
    intros Hp. rewrite pe_args. apply (good_here w (fun start => pws (pchar 40) ;;; args_body perr (pe is_lowercase r NtParse) start)).
    intros start Hst. apply good_seq; [apply good_pws; auto with good|]. unfold args_body. apply good_cut. eapply good_bind.
    - apply (good_separated_list0_st w (pchar 44) _ (fun names => names = []) (fun _ => Forall wf_expr)); auto with good.
      intros names ->. apply good_pws. intros i Hi. unfold argument. cbn [perr]. pose proof (Hp i Hi) as H.
      destruct (pe is_lowercase r NtParse i); auto. cbn [nonempty andb]. cbn. intuition.
    - intros l Hl. apply good_seq; [apply good_opt_true, good_pws; auto with good|]. apply good_seq; [auto with good|]. now apply good_ret.
  Qed.

  (** A primary expression is well-formed unless it is a negative number. *)
  Definition unsigned_ok (r : nat) : Prop :=
    (forall i j a, no_minus i -> pe is_lowercase r NtSingle i = POk j a -> wk 13 a) /\
    (forall i j a, no_minus i -> pe is_lowercase r NtSuffix i = POk j a -> wk 12 a).
  Lemma suffix_parts r : (forall n v, good v (pe is_lowercase r n) (nt_post n)) -> (forall m n v, (m < r)%nat -> good v (pe is_lowercase m n) (nt_post n)) ->
    let suf := suffix_attr <|> pmap SIndex (pe is_lowercase r NtIndex) <|> pmap SCall (pe is_lowercase r NtCall) <|> suffix_try <|> suffix_macro in
    (forall v, good v suf wf_suffix) /\ shrinks suf.
  Proof.
    intros IH IHl suf. split.
    - intros v. apply good_or; [apply good_suffix_attr|]. apply good_or; [eapply good_map; [apply (IH NtIndex)|auto]|].
      apply good_or; [eapply good_map; [apply (IH NtCall)|auto]|]. apply good_or; [apply good_suffix_try|apply good_suffix_macro].
    - apply shrinks_or; [|apply shrinks_or; [|apply shrinks_or; [|apply shrinks_or]]].
      + unfold suffix_attr. apply shrinks_map. apply shrinks_bind_l; [|intros a; apply (good_nogrow _ (fun _ => True)); intros v; apply good_cut, good_or; auto with good].
        unfold pws. apply shrinks_bind_r; [apply (good_nogrow _ (fun _ => True)); intros; apply good_skip_blanks|]. intros _.
        apply shrinks_bind_l; [apply shrinks_bind_l; [apply shrinks_pchar|]|].
        * intros a. apply (good_nogrow _ (fun _ => True)). intros v. apply good_not. auto with good.
        * intros a. apply (good_nogrow _ (fun _ => True)). intros v. apply good_seq; [auto with good|]. apply good_ret. exact I.
      + apply shrinks_map, shrinks_pe_index. intros. apply (IHl m NtParse). assumption.
      + apply shrinks_map, shrinks_pe_call. exact IHl.
      + unfold suffix_try. apply shrinks_map. apply shrinks_bind_r; [apply (good_nogrow _ (fun _ => True)); intros; apply good_skip_blanks|]. intros _. apply shrinks_pchar.
      + unfold suffix_macro. apply shrinks_bind_l.
        * apply shrinks_pws_pchar. intros a. apply (good_nogrow _ (fun _ => True)). intros v. apply good_pchar.
        * intros a. apply (good_nogrow _ (fun _ => True)). intros v. apply good_cut. eapply good_bind; [eapply good_map with (R := fun _ => True); [apply good_recognize, good_nested|auto]|].
          intros b _. apply good_seq; [auto with good|]. apply good_ret. exact I.
  Qed.
  Lemma unsigned_step r : (forall n v, good v (pe is_lowercase r n) (nt_post n)) -> (forall m n v, (m < r)%nat -> good v (pe is_lowercase m n) (nt_post n)) ->
    unsigned_ok r -> unsigned_ok (S r).
  Proof.
    intros IH IHl [U1 U2]. split; intros i j a Hi E; cbn [pe] in E.
    - unfold por in E at 1. destruct (pmap NumLit num_lit i) as [j' a'|e m|e m|] eqn:E1; try discriminate.
      + injection E as <- <-. unfold pmap in E1. destruct (num_lit i) as [j0 s|?|?|] eqn:E2; try discriminate. injection E1 as <- <-.
        split; [constructor; eapply number_no_minus; eauto|cbn; lia].
      + clear E1. match type of E with ?p i = _ => assert (G : good i p (wk 13)) end.
        { apply good_or; [eapply good_map; [apply good_str_lit|intros; split; [now constructor|cbn; lia]]|].
          apply good_or; [eapply good_map; [apply good_char_lit|intros; split; [now constructor|cbn; lia]]|].
          apply good_or; [apply good_pvb|]. apply good_or; [apply (IH NtArray)|apply (IH NtGroup)]. }
        specialize (G i (suffix_refl i)). rewrite E in G. tauto.
    - apply pbind_inv in E as (k & e & E1 & E2). apply U1 in E1; [|exact Hi]. destruct (suffix_parts r IH IHl) as [S1 S2].
      pose proof (good_suffix_loop true k _ S1 S2 (S (length k)) e k (suffix_refl k) ltac:(lia)) as G.
      rewrite E2 in G. apply G; [|reflexivity]. intros _. destruct E1. split; [auto|lia].
  Qed.
  Theorem pe_good_all r : (forall n w, good w (pe is_lowercase r n) (nt_post n)) /\ unsigned_ok r.
  Proof.
    induction r as [r IHr] using lt_wf_ind. destruct r as [|r]; [split; [intros n w i Hi; destruct n; exact Hi|split; intros i j a Hi E; discriminate E]|].
    assert (IH : forall n v, good v (pe is_lowercase r n) (nt_post n)) by (intros; apply IHr; lia).
    assert (IHu : unsigned_ok r) by (apply IHr; lia).
    assert (IHl : forall m n v, (m < r)%nat -> good v (pe is_lowercase m n) (nt_post n)) by (intros; apply IHr; lia).
    split; [|now apply unsigned_step]. intros n w.
    destruct n as [ | | | | | | | | | | | | | | | | | |b| ]; cbn [pe nt_post nt_res].
    - (* parse *)
      set (rr := pbind (pws (tag (lit "..=") <|> tag (lit ".."))) _).
      assert (Hrr : good w rr (fun x => In (fst x) range_ops /\ forall e, snd x = Some e -> (1 <= binds e)%nat /\ wf_expr e)).
      { unfold rr. eapply good_bind.
        - apply good_pws, (good_or _ _ _ (fun o => In o range_ops)); (eapply good_weaken; [apply good_tag|]); intros a ->; cbn; auto.
        - intros op Hop. eapply good_bind; [apply good_opt, (IH NtOr)|]. intros o Ho. apply good_ret. split; auto. cbn [snd]. intros e ->. destruct Ho. auto. }
      apply good_or.
      + eapply good_map; [exact Hrr|]. intros [op e] [H1 H2]. constructor; auto. discriminate.
      + eapply good_bind; [apply (IH NtOr)|]. intros l Hl. eapply good_bind; [apply good_opt, Hrr|]. intros [[op e]|] Ho; apply good_ret; [|apply Hl].
        destruct Ho as [H1 H2]. constructor; auto. intros x [= <-]. destruct Hl. auto.
    - apply good_layer; [apply good_tag_op; vm_compute; tauto|apply (IH NtAnd)].
    - apply good_layer; [apply good_tag_op; vm_compute; tauto|apply (IH NtCompare)].
    - apply good_layer; [repeat (apply good_or; [apply good_tag_op; vm_compute; tauto|]); apply good_tag_op; vm_compute; tauto|apply (IH NtBor)].
    - apply good_layer; [apply good_tag_op; vm_compute; tauto|apply (IH NtBxor)].
    - apply good_layer; [apply good_tag_op; vm_compute; tauto|apply (IH NtBand)].
    - apply good_layer; [apply good_tag_op; vm_compute; tauto|apply (IH NtShifts)].
    - apply good_layer; [repeat (apply good_or; [apply good_tag_op; vm_compute; tauto|]); apply good_tag_op; vm_compute; tauto|apply (IH NtAddsub)].
    - apply good_layer; [repeat (apply good_or; [apply good_tag_op; vm_compute; tauto|]); apply good_tag_op; vm_compute; tauto|apply (IH NtMuldivmod)].
    - apply good_layer; [repeat (apply good_or; [apply good_tag_op; vm_compute; tauto|]); apply good_tag_op; vm_compute; tauto|apply (IH NtFiltered)].
    - (* filtered *)
      eapply good_bind; [apply (IH NtPrefix)|]. intros obj Hobj. eapply good_bind; [apply good_many0, good_filter, (IH (NtArguments false))|].
      intros fs Hfs. apply good_ret. cbn [nt_post] in Hobj. revert obj Hobj.
      assert (W : forall obj, wk 10 obj -> wk 10 (fold_left apply_filter fs obj)).
      { induction Hfs as [|[n o] fs [H1 H2] Hfs IHf]; intros obj Hobj; cbn [fold_left]; auto. apply IHf. unfold apply_filter. cbn [fst snd] in *.
        destruct Hobj. split; [|cbn; lia]. constructor; auto. destruct o; auto. }
      intros obj [O1 O2]. apply W. split; [exact O1|lia].
    - (* prefix *)
      intros i Hi. set (op := pws (tag (lit "!") <|> tag (lit "-"))).
      assert (Go : good w (many0 op) (Forall (fun o => In o unary_ops))).
      { apply good_many0, good_pws, (good_or _ _ _ (fun o => In o unary_ops)); (eapply good_weaken; [apply good_tag|]); intros a ->; cbn; auto. }
      specialize (Go i Hi). unfold pbind. destruct (many0 op i) as [j ops|e m|e m|] eqn:E1; auto. destruct Go as [Hj Hops].
      assert (NM : no_minus j).
      { apply many0_ends in E1 as (e & m & E1). intros t ->. unfold op, pws, pbind in E1. change (skip_blanks (45 :: t)) with (POk (45 :: t) (@nil N)) in E1. cbv iota in E1.
        change ((tag (lit "!") <|> tag (lit "-")) (45 :: t)) with (POk t (lit "-")) in E1. cbv iota in E1.
        unfold skip_blanks, take_till in E1. destruct (span _ t). discriminate E1. }
      pose proof (IH NtSuffix w j (suffix_trans _ _ _ Hj Hi)) as G. destruct (pe is_lowercase r NtSuffix j) as [k e|e m|e m|] eqn:E2; auto.
      destruct G as [Hk _]. assert (Hkw : suffix k w) by (eapply suffix_trans; [exact Hk|eapply suffix_trans; eauto]).
      destruct (Nat.ltb _ _); [exact Hkw|]. split; [exact (suffix_trans _ _ _ Hk Hj)|].
      apply fold_right_unary; [exact Hops|]. destruct (proj2 IHu _ _ _ NM E2). split; [auto|lia].
    - (* suffix *)
      eapply good_bind; [apply (IH NtSingle)|]. intros e He i Hi. destruct (suffix_parts r IH IHl) as [S1 S2].
      pose proof (good_suffix_loop false w _ S1 S2 (S (length i)) e i Hi ltac:(lia) ltac:(discriminate)) as G.
      match goal with |- match ?x with _ => _ end => destruct x; tauto end.
    - (* single *)
      apply good_or; [eapply good_map; [apply good_num_lit|auto]|].
      apply good_or; [eapply good_map; [apply good_str_lit|auto]|].
      apply good_or; [eapply good_map; [apply good_char_lit|auto]|].
      apply good_or; [eapply good_weaken; [apply good_pvb|auto]|]. apply good_or; [eapply good_weaken; [apply (IH NtArray)|auto]|eapply good_weaken; [apply (IH NtGroup)|auto]].
    - (* group *)
      eapply good_bind; [apply good_seq; [apply good_pws; auto with good|apply good_opt, (IH NtParse)]|]. intros [e|] He.
      + eapply good_bind; [apply good_pws, good_opt_true, good_peek; auto with good|]. intros [c|] _.
        * eapply good_bind; [apply good_many0; apply good_seq; [auto with good|apply good_pws, (IH NtParse)]|]. intros es Hes.
          apply good_seq; [apply good_pws, good_opt_true; auto with good|]. apply good_seq; [auto with good|]. apply good_ret. split; [|cbn; lia]. constructor. constructor; auto.
        * apply good_seq; [auto with good|]. apply good_ret. split; [now constructor|cbn; lia].
      + apply good_seq; [auto with good|]. apply good_ret. split; [|cbn; lia]. constructor. constructor.
    - (* array *)
      apply good_seq; [apply good_pws; auto with good|]. apply good_cut.
      eapply good_bind; [apply good_separated_list0; [auto with good|apply good_pws, (IH NtParse)]|]. intros l Hl.
      apply good_seq; [apply good_opt_true, good_pws; auto with good|]. apply good_seq; [auto with good|]. apply good_ret. split; [now constructor|cbn; lia].
    - (* index *)
      apply good_seq; [apply good_pws; auto with good|]. apply good_cut. eapply good_bind; [apply good_pws, (IH NtParse)|]. intros e He.
      apply good_seq; [auto with good|]. now apply good_ret.
    - (* call *) apply (IH (NtArguments false)).
    - (* arguments *)
      destruct b; [|apply good_args_false, (IH NtParse)].
      apply (good_here w (fun start => pws (pchar 40) ;;; args_body (pe is_lowercase r NtNamed) (pe is_lowercase r NtParse) start)).
      intros start Hst. apply good_seq; [apply good_pws; auto with good|].
      eapply good_weaken; [apply good_args_body; [exact Hst|apply (IH NtNamed)|apply (IH NtParse)]|]. apply args_ok_call.
    - (* named *)
      eapply good_bind; [apply good_ident|]. intros n Hn. apply good_seq; [apply good_pws; auto with good|].
      eapply good_bind; [apply (IH NtParse)|]. intros v Hv. apply good_ret. auto.
  Qed.
  Theorem pe_good r n w : good w (pe is_lowercase r n) (nt_post n).
  Proof. apply pe_good_all. Qed.
End Expr.
