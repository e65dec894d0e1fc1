(** * The generator does not panic on templates that satisfy the conditions of PanicSpec.v. *)
From Verif Require Import Base Ws Ast Ident IdentFacts GenExpr Heritage Gen HeritageSpec HeritageFacts SimExpr GenElab TreeSpec ParseSpec ApartFacts PanicSpec.
From Verif Require FlatFacts.
From Coq Require Import Lia ZArith ZifyBool ZifyNat ZifyN.
Local Open Scope N_scope.

(** ** A logic for results *)
Definition gsafe {A} (r : gres A) (Q : A -> Prop) : Prop := match r with GOk a => Q a | GPanic => False | _ => True end.
Definition rsafe {A} (r : res A) (Q : A -> Prop) : Prop := match r with Ok a => Q a | Panic => False | Err _ => True end.
Lemma gsafe_bind {A B} (r : gres A) (k : A -> gres B) Q Q' : gsafe r Q -> (forall a, Q a -> gsafe (k a) Q') -> gsafe (gbind r k) Q'.
Proof. intros H K. destruct r; cbn in *; auto. Qed.
Lemma rsafe_bind {A B} (r : res A) (k : A -> res B) Q Q' : rsafe r Q -> (forall a, Q a -> rsafe (k a) Q') -> rsafe (rbind r k) Q'.
Proof. intros H K. destruct r; cbn in *; auto. Qed.
Lemma gsafe_weak {A} (r : gres A) (Q Q' : A -> Prop) : gsafe r Q -> (forall a, Q a -> Q' a) -> gsafe r Q'.
Proof. intros H K. destruct r; cbn in *; auto. Qed.
Lemma rsafe_weak {A} (r : res A) (Q Q' : A -> Prop) : rsafe r Q -> (forall a, Q a -> Q' a) -> rsafe r Q'.
Proof. intros H K. destruct r; cbn in *; auto. Qed.
Lemma gsafe_res {A} (r : res A) Q : rsafe r Q -> gsafe (of_res r) Q.
Proof. destruct r; exact (fun H => H). Qed.
Definition any {A} (_ : A) : Prop := True.

(** ** Expressions: every filter has an argument *)
Fixpoint fed (e : expr) : bool :=
  match e with
  | Arr l | Tuple l => forallb fed l
  | Filter _ l => match l with [] => false | _ => true end && forallb fed l
  | Attr e _ | NamedArgument _ e | Unary _ e | Group e | Try e => fed e
  | Index a b | BinOp _ a b => fed a && fed b
  | Range _ l r => match l with Some e => fed e | None => true end && match r with Some e => fed e | None => true end
  | Call f l => fed f && forallb fed l
  | _ => true
  end.
Lemma forallb_all {A} (f : A -> bool) l : forallb f l = true -> forall x, In x l -> f x = true.
Proof. intros H x Hx. rewrite forallb_forall in H. auto. Qed.
Section Fed.
  Variables (inp : ginput) (m : chain).
  Notation ok e := (rsafe (visit_expr inp m e) any).
  Lemma sub_ok e : ok e -> rsafe (v_sub inp m e) any.
  Proof. intros H. eapply rsafe_bind; [exact H|]. intros [r w] _. exact I. Qed.
  Lemma subs_ok l : (forall e, In e l -> ok e) -> rsafe (v_subs inp m l) any.
  Proof.
    induction l as [|e l IH]; intros H; [exact I|]. cbn [v_subs]. eapply rsafe_bind; [apply sub_ok, H; left; reflexivity|]. intros r _.
    eapply rsafe_bind; [apply IH; intros; apply H; right; assumption|]. intros; exact I.
  Qed.
  Lemma arg_ok e : ok e -> rsafe (v_arg inp m e) any.
  Proof. intros H. eapply rsafe_bind; [apply sub_ok, H|]. intros; exact I. Qed.
  Lemma args_ok l : (forall e, In e l -> ok e) -> rsafe (v_args inp m l) any.
  Proof.
    induction l as [|e l IH]; intros H; [exact I|]. cbn [v_args]. eapply rsafe_bind; [apply arg_ok, H; left; reflexivity|]. intros r _.
    eapply rsafe_bind; [apply IH; intros; apply H; right; assumption|]. intros; exact I.
  Qed.
  Lemma plain_ok (r : res rexpr) : rsafe r any -> rsafe (v_plain r) any.
  Proof. intros H. eapply rsafe_bind; [exact H|]. intros; exact I. Qed.
  Lemma then_ok {A B} (r : res A) (f : A -> B) : rsafe r any -> rsafe (let! x := r in Ok (f x)) any.
  Proof. intros H. eapply rsafe_bind; [exact H|]. intros; exact I. Qed.
  Lemma filter_ok name args : args <> [] -> (forall e, In e args -> ok e) -> ok (Filter name args).
  Proof.
    intros HN H. rewrite visit_filter.
    assert (H1 : forall a, In a args -> rsafe (v_sub inp m a) any) by (intros; apply sub_ok; auto).
    assert (H2 : forall a, In a args -> rsafe (v_arg inp m a) any) by (intros; apply arg_ok; auto).
    destruct (str_eqb name (lit "as_ref")); [destruct args as [|a [|b l]]; try exact I; apply plain_ok, then_ok, H1; left; reflexivity|].
    destruct (str_eqb name (lit "deref")); [destruct args as [|a [|b l]]; try exact I; apply plain_ok, then_ok, H1; left; reflexivity|].
    destruct (str_eqb name (lit "escape") || str_eqb name (lit "e")).
    { destruct args as [|a [|b [|c l]]]; [congruence|apply then_ok, H2; left; reflexivity| |exact I || (destruct b; exact I)]. destruct b; try exact I.
      eapply rsafe_bind with (Q := any); [unfold named_escaper; destruct (List.find _ _) as [[? ?]|]; exact I|]. intros esc _. apply then_ok, H2. left; reflexivity. }
    destruct (str_eqb name (lit "fmt")).
    { destruct args as [|a [|b [|c l]]]; try exact I; destruct b; try exact I. apply plain_ok, then_ok, H2. left; reflexivity. }
    destruct (str_eqb name (lit "format")).
    { destruct args as [|a l]; try exact I. destruct a; try exact I. apply plain_ok, then_ok, args_ok. intros; apply H; right; assumption. }
    destruct (str_eqb name (lit "join")); [apply plain_ok, then_ok, subs_ok, H|].
    destruct (str_eqb name (lit "json") || str_eqb name (lit "tojson")).
    { destruct (negb (f_json inp)); [exact I|]. destruct args as [|a [|b l]]; try exact I. apply plain_ok, then_ok, H2. left; reflexivity. }
    destruct (str_eqb name (lit "safe")); [destruct args as [|a [|b l]]; try exact I; apply then_ok, H2; left; reflexivity|].
    apply plain_ok, then_ok, args_ok, H.
  Qed.
  Lemma call_ok f args : ok f -> (forall e, In e args -> ok e) -> ok (Call f args).
  Proof.
    intros HF H. rewrite visit_call.
    assert (G : rsafe (v_plain (let! r := v_sub inp m f in let! rs := v_args inp m args in Ok (RCall r rs))) any).
    { apply plain_ok. eapply rsafe_bind; [apply sub_ok, HF|]. intros r _. apply then_ok, args_ok, H. }
    destruct f; try exact G; [apply plain_ok, then_ok, args_ok, H|]. destruct f; try exact G. destruct (str_eqb s (lit "loop")); [|exact G].
    destruct (str_eqb name (lit "cycle")); [|exact I]. destruct args as [|a l]; [exact I|].
    assert (G' : rsafe (v_plain (let! r := v_sub inp m a in Ok (RCycle r))) any) by (apply plain_ok, then_ok, sub_ok, H; left; reflexivity).
    destruct l as [|b l]; [|destruct a as [| | | | | |[|? ?]| | | | | | | | | | | | |]; exact I]. destruct a as [| | | | | |[|? ?]| | | | | | | | | | | | |]; exact G'.
  Qed.
  Lemma fed_ok e : fed e = true -> ok e.
  Proof.
    induction e using expr_ind'; cbn [fed]; intros F; try exact I.
    - rewrite visit_arr. apply plain_ok, then_ok, subs_ok. intros e He. rewrite Forall_forall in H. apply H; [exact He|]. exact (forallb_all _ _ F _ He).
    - cbn [visit_expr]. destruct (var_loop e).
      + apply plain_ok. unfold loop_attr. repeat match goal with |- context [if ?b then _ else _] => destruct b end; exact I.
      + apply plain_ok. apply then_ok, sub_ok, IHe, F.
    - apply andb_true_iff in F as [F1 F2]. apply plain_ok. eapply rsafe_bind; [apply sub_ok, IHe1, F1|]. intros r _. apply then_ok, sub_ok, IHe2, F2.
    - apply andb_true_iff in F as [F1 F2]. apply filter_ok; [intros ->; discriminate F1|]. intros e He. rewrite Forall_forall in H. apply H; [exact He|]. exact (forallb_all _ _ F2 _ He).
    - apply plain_ok, sub_ok, IHe, F.
    - apply plain_ok, then_ok, sub_ok, IHe, F.
    - apply andb_true_iff in F as [F1 F2]. apply plain_ok. eapply rsafe_bind; [apply sub_ok, IHe1, F1|]. intros r _. apply then_ok, sub_ok, IHe2, F2.
    - apply andb_true_iff in F as [F1 F2]. apply plain_ok. eapply rsafe_bind with (Q := any).
      + destruct l as [e|]; [apply then_ok, sub_ok, H, F1|exact I].
      + intros a _. apply then_ok. destruct r as [e|]; [apply then_ok, sub_ok, H0, F2|exact I].
    - apply plain_ok, then_ok, sub_ok, IHe, F.
    - rewrite visit_tuple. apply plain_ok, then_ok, subs_ok. intros e He. rewrite Forall_forall in H. apply H; [exact He|]. exact (forallb_all _ _ F _ He).
    - apply andb_true_iff in F as [F1 F2]. apply call_ok; [apply IHe, F1|]. intros e' He. rewrite Forall_forall in H. apply H; [exact He|]. exact (forallb_all _ _ F2 _ He).
    - apply plain_ok, then_ok, sub_ok, IHe, F.
  Qed.
  Lemma root_ok e : fed e = true -> rsafe (visit_expr_root inp m e) any.
  Proof. intros H. apply (sub_ok e), fed_ok, H. Qed.
End Fed.
Lemma wf_fed e : wf_expr e -> fed e = true.
Proof.
  induction e using expr_ind'; intros W; inversion W; subst; cbn [fed]; try reflexivity; auto;
    repeat (apply andb_true_iff; split); auto;
    try (apply forallb_forall; intros x Hx; rewrite Forall_forall in *; auto; fail).
  - inversion H; auto.
  - inversion H as [|? ? Ha Hb]; subst. apply forallb_forall. intros x Hx. rewrite Forall_forall in *. auto.
  - destruct l; [|reflexivity]. apply H. match goal with K : forall e, Some _ = Some e -> _ |- _ => exact (proj2 (K _ eq_refl)) end.
  - destruct r as [x|]; [|reflexivity]. apply H0. match goal with K : forall e, Some x = Some e -> _ |- _ => exact (proj2 (K _ eq_refl)) end.
Qed.
Lemma insert_fed x e : fed e = true -> fed (insert_in_filter x e) = true.
Proof.
  induction e using expr_ind'; intros F; try exact F. destruct l as [|a l]; [discriminate F|].
  cbn [fed forallb] in F. apply andb_true_iff in F as [_ F]. apply andb_true_iff in F as [Fa Fl]. inversion H as [|? ? Ha Hl]; subst.
  destruct a; try (cbn [insert_in_filter fed forallb andb]; cbn [fed] in Fa; rewrite ?Fa, ?Fl; reflexivity).
  change (insert_in_filter x (Filter n (Filter name args :: l))) with (Filter n (insert_in_filter x (Filter name args) :: l)).
  cbn [fed forallb]. change (fed (insert_in_filter x (Filter name args)) && forallb fed l = true). rewrite (Ha Fa), Fl. reflexivity.
Qed.
Lemma block_filter_fed x n l : wf_block_filter n l -> fed (insert_in_filter x (Filter n l)) = true.
Proof.
  induction 1 as [n l _ H|n m l l' _ _ IH H].
  - assert (F : forallb fed l = true) by (apply forallb_forall; intros e He; rewrite Forall_forall in H; apply wf_fed; auto).
    destruct l as [|a l]; [reflexivity|]. apply insert_fed. cbn [fed]. exact F.
  - change (insert_in_filter x (Filter n (Filter m l :: l'))) with (Filter n (insert_in_filter x (Filter m l) :: l')).
    cbn [fed forallb]. change (fed (insert_in_filter x (Filter m l)) && forallb fed l' = true). rewrite IH. apply forallb_forall. intros e He. rewrite Forall_forall in H. apply wf_fed; auto.
Qed.

(** ** Scopes *)
Definition depth (m : chain) : nat := match m with Chain _ ss => length ss end.
Lemma insert_ok m k v : (1 <= depth m)%nat -> rsafe (ch_insert m k v) (fun m' => depth m' = depth m).
Proof. destruct m as [p [|s ss]]; cbn; [lia|reflexivity]. Qed.
Lemma insert_all_ok v ks : forall m, (1 <= depth m)%nat -> rsafe (insert_all m v ks) (fun m' => depth m' = depth m).
Proof.
  induction ks as [|k ks IH]; intros m H; [reflexivity|]. cbn [insert_all]. eapply rsafe_bind; [apply insert_ok, H|]. intros m' E; cbn beta in E.
  eapply rsafe_weak; [apply IH; lia|]. intros a Ha; cbn beta in *; lia.
Qed.
Lemma target_ok m b t : (1 <= depth m)%nat -> rsafe (visit_target m b t) (fun x => depth (snd x) = depth m).
Proof. intros H. eapply rsafe_bind; [apply insert_all_ok, H|]. intros m' E. exact E. Qed.
Lemma pop_ok m d : depth m = S d -> (1 <= d)%nat -> rsafe (ch_pop m) (fun m' => depth m' = d).
Proof. destruct m as [p [|s [|s' ss]]]; cbn; intros; try discriminate; try lia. Qed.
Lemma push_depth m : depth (ch_push m) = S (depth m).
Proof. destruct m; reflexivity. Qed.
Lemma shadow_ok m t : rsafe (is_shadowing_variable m t) any.
Proof.
  revert t. fix IH 1. intros [x|p l|p l|s|s|s|s|p|l]; cbn [is_shadowing_variable]; try exact I.
  - destruct (ch_get m _); exact I.
  - induction l as [|t l IHl]; [exact I|]. eapply rsafe_bind; [apply IH|]. intros [|] _; [exact I|exact IHl].
  - induction l as [|[k t] l IHl]; [exact I|]. eapply rsafe_bind; [apply IH|]. intros [|] _; [exact I|exact IHl].
Qed.

(** ** Median *)
Lemma insert_sorted_length x l : length (insert_sorted x l) = S (length l).
Proof. induction l as [|y l IH]; [reflexivity|]. cbn [insert_sorted]. destruct (x <=? y); cbn [length]; rewrite ?IH; reflexivity. Qed.
Lemma sort_length l : length (sort_sizes l) = length l.
Proof. induction l as [|x l IH]; [reflexivity|]. cbn [sort_sizes fold_right]. rewrite insert_sorted_length. unfold sort_sizes in IH. rewrite IH. reflexivity. Qed.
Lemma median_ok l : l <> [] -> rsafe (median l) any.
Proof.
  intros H. unfold median. assert (L : (1 <= length (sort_sizes l))%nat) by (rewrite sort_length; destruct l; [congruence|cbn; lia]).
  pose proof (Nat.div_mod (length (sort_sizes l)) 2 ltac:(lia)) as DM. pose proof (Nat.mod_upper_bound (length (sort_sizes l)) 2 ltac:(lia)) as MB.
  destruct (Nat.eqb _ 1) eqn:E.
  - apply Nat.eqb_eq in E. destruct (nth_error _ _) eqn:N; [exact I|]. apply nth_error_None in N. lia.
  - apply Nat.eqb_neq in E. destruct (Nat.div _ 2) as [|i] eqn:D; [lia|]. destruct (nth_error _ i) eqn:N1; [destruct (nth_error _ (S i)) eqn:N2; [exact I|]|].
    + apply nth_error_None in N2. lia.
    + apply nth_error_None in N1. lia.
Qed.

(** ** States *)
Definition wok (x : writable) : Prop := match x with WExpr e => fed e = true | _ => True end.
Record okst (i : N) (d : nat) (o : bool) (sup : option (str * nat)) (st : gst) : Prop := {
  ok_indent : o_indent st <= i; ok_depth : depth (s_locals st) = d; ok_disc : o_discard st = o;
  ok_sup : s_super st = sup; ok_buf : Forall wok (s_buf st) }.
Definition clear (st : gst) : Prop := next_ws (s_ws st) = None.
Definition up (i : N) (o : bool) : N := if o then i else i + 1.
Lemma up_le i o : i <= up i o <= i + 1.
Proof. destruct o; cbn; lia. Qed.

Section Steps.
  Variable inp : ginput.
  Section At.
    Variables (i : N) (d : nat) (o : bool) (sup : option (str * nat)).
    Notation ok := (okst i d o sup).
    Lemma push_ok ws st : Forall wok ws -> ok st -> ok (push ws st).
    Proof.
      intros HW []. unfold push. destruct (s_discard st); constructor; cbn; auto. apply Forall_app. auto.
    Qed.
    Lemma lits_wok l : Forall wok (map WLit l).
    Proof. apply Forall_forall. intros x Hx. apply in_map_iff in Hx as (s & <- & _). exact I. Qed.
    Lemma set_ws_ok w st : ok st -> ok (set_ws w st).
    Proof. intros []. constructor; assumption. Qed.
    Lemma push_ws ws st : s_ws (push ws st) = s_ws st.
    Proof. unfold push. destruct (s_discard st); reflexivity. Qed.
    Lemma flush_ok l st : ok st -> ok (do_flush_ws inp l st).
    Proof. intros H. unfold do_flush_ws. destruct (flush_ws _ _ _) as [out w]. apply push_ok; [apply lits_wok|]. apply set_ws_ok, H. Qed.
    Lemma flush_clear l st : clear (do_flush_ws inp l st).
    Proof.
      unfold do_flush_ws, clear. destruct (flush_ws (f_ws inp) l (s_ws st)) as [out w] eqn:E. unfold push_lits. rewrite push_ws. cbn [set_ws s_ws].
      unfold flush_ws in E. destruct (next_ws (s_ws st)) eqn:N; [|injection E as <- <-; exact N]. destruct (should_trim_ws _ _); injection E as <- <-; reflexivity.
    Qed.
    Lemma prepare_ok r st : ok st -> ok (do_prepare_ws inp r st).
    Proof. apply set_ws_ok. Qed.
    Lemma prepare_clear r st : clear st -> clear (do_prepare_ws inp r st).
    Proof. exact (fun H => H). Qed.
    Lemma handle_ok w st : ok st -> ok (do_handle_ws inp w st).
    Proof. intros H. apply prepare_ok, flush_ok, H. Qed.
    Lemma handle_clear w st : clear (do_handle_ws inp w st).
    Proof. apply prepare_clear, flush_clear. Qed.
    Lemma lit_ok_st l st : lit_ok l -> ok st -> clear st -> gsafe (do_visit_lit l st) ok.
    Proof.
      intros K H C. unfold do_visit_lit. destruct (visit_lit l (s_ws st)) as [[out w]|] eqn:E; [apply push_ok; [apply lits_wok|]; apply set_ws_ok, H|].
      unfold visit_lit in E. rewrite C in E. exfalso.
      destruct (lval l) as [|v lv] eqn:EV; [rewrite (K EV) in E|]; destruct (lws l) as [|c lw]; try (destruct (skip (s_ws st))); discriminate E.
    Qed.
    Lemma line_ok st : ok st -> i <= 61 -> gsafe (line st) any.
    Proof. intros [Hi _ _ _ _] L. unfold line. destruct (o_discard st); [exact I|]. destruct (64 <=? o_indent st) eqn:E; [lia|exact I]. Qed.
    Lemma format_ok ws : Forall wok ws -> forall m p, rsafe (format_loop inp m ws p) any.
    Proof.
      induction 1 as [|x ws Hx _ IH]; intros m p; [exact I|]. destruct x; cbn [format_loop]; try apply IH.
      eapply rsafe_bind; [apply fed_ok, Hx|]. intros [r w] _. apply IH.
    Qed.
    Lemma prepare_format_ok ws m n : Forall wok ws -> rsafe (prepare_format inp m ws n) any.
    Proof.
      intros H. unfold prepare_format. destruct ws as [|x ws]; [exact I|]. destruct (all_lits (x :: ws)); [exact I|].
      eapply rsafe_bind; [apply format_ok, H|]. intros p _. exact I.
    Qed.
    Lemma set_named_ok n st : ok st -> ok (set_named n (set_buf [] st)).
    Proof. intros []. constructor; try assumption. constructor. Qed.
    Lemma write_ok st : ok st -> i <= 61 -> gsafe (write_buf_writable inp st) (fun x => ok (snd x) /\ s_ws (snd x) = s_ws st).
    Proof.
      intros H L. unfold write_buf_writable. eapply gsafe_bind; [apply gsafe_res, prepare_format_ok, H|]. intros [[size parts] named] _.
      assert (G : ok (set_named named (set_buf [] st))) by apply set_named_ok, H.
      destruct parts; [split; [exact G|reflexivity]| |].
      - eapply gsafe_bind; [apply line_ok; assumption|]. intros _ _. split; [exact G|reflexivity].
      - destruct (63 <=? o_indent st) eqn:E; [destruct H; lia|]. eapply gsafe_bind; [apply line_ok; assumption|]. intros _ _. split; [exact G|reflexivity].
    Qed.
    Lemma set_locals_ok m st d' : ok st -> depth m = d' -> okst i d' o sup (set_locals m st).
    Proof. intros [] <-. constructor; auto. Qed.
    Lemma push_locals_ok st : ok st -> okst i (S d) o sup (push_locals st).
    Proof. intros H. apply set_locals_ok; [exact H|]. rewrite push_depth. destruct H. congruence. Qed.
    Lemma open_ok st : ok st -> okst (up i o) d o sup (open_brace st).
    Proof. intros [? ? E ? ?]. unfold open_brace. rewrite E. destruct o; constructor; cbn; auto. lia. Qed.
    Lemma dedent_ok st : okst (up i o) d o sup st -> gsafe (dedent st) (fun st' => ok st' /\ s_ws st' = s_ws st).
    Proof.
      intros []. unfold dedent. destruct (o_indent st =? 0); [exact I|]. split; [|reflexivity]. constructor; cbn; auto. pose proof (up_le i o). lia.
    Qed.
    Lemma close_ok st : okst (up i o) d o sup st -> i <= 61 -> gsafe (close_brace st) (fun st' => ok st' /\ s_ws st' = s_ws st).
    Proof.
      intros H L. unfold close_brace. destruct (o_discard st) eqn:E.
      - split; [|reflexivity]. destruct H as [H1 H2 H3 H4 H5]. rewrite E in H3. subst o. constructor; auto.
      - eapply gsafe_bind; [apply dedent_ok, H|]. intros st' [H' W]. eapply gsafe_bind; [apply line_ok; assumption|]. intros _ _. split; assumption.
    Qed.
    Lemma weaken_ok st i' : ok st -> i <= i' -> okst i' d o sup st.
    Proof. intros [] H. constructor; auto. lia. Qed.
    Lemma pop_locals_ok st : okst i (S d) o sup st -> (1 <= d)%nat -> gsafe (pop_locals st) (fun st' => ok st' /\ s_ws st' = s_ws st).
    Proof.
      intros H D. unfold pop_locals. eapply gsafe_bind; [apply gsafe_res, (pop_ok _ d); [apply H|exact D]|]. cbn beta. intros m E. split; [|reflexivity].
      destruct H. constructor; auto.
    Qed.
    Lemma target_st st b t : ok st -> (1 <= d)%nat -> gsafe (of_res (visit_target (s_locals st) b t)) (fun x => depth (snd x) = d).
    Proof. intros [_ H _ _ _] D. apply gsafe_res. rewrite <- H. apply target_ok. lia. Qed.
  End At.
End Steps.

(** ** Nodes *)
Definition nonempty {A} (l : list A) : Prop := l <> [].
(** The blocks in a list of nodes, but not those inside of other blocks and macros *)
Fixpoint block_names (n : node) : list str :=
  match n with
  | NBlockDef _ x _ _ => [x]
  | NIf _ cs => concat (map (fun c => match c with Cond _ _ ns => concat (map block_names ns) end) cs)
  | NMatch _ _ arms _ => concat (map (fun c => match c with When _ _ ns => concat (map block_names ns) end) arms)
  | NLoop _ _ _ _ body _ els _ => concat (map block_names body) ++ concat (map block_names els)
  | NFilterBlock _ _ _ ns _ => concat (map block_names ns)
  | _ => []
  end.
Definition names_of (l : list node) : list str := concat (map block_names l).
(** Nodes without a reason to panic of their own; [inc]: the paths that may be included.  Macros are dealt with where they are
    called. *)
Section Calm.
  Variable inc : str -> Prop.
  Inductive calm : node -> Prop :=
  | k_lit l : lit_ok l -> calm (NLit l)
  | k_comment w c : calm (NComment w c)
  | k_expr w e : fed e = true -> calm (NExpr w e)
  | k_call w sc n args : forallb fed args = true -> calm (NCall w sc n args)
  | k_let w t v : (forall e, v = Some e -> fed e = true) -> calm (NLet w t v)
  | k_if w cs : cs <> [] -> Forall calm_cond cs -> calm (NIf w cs)
  | k_match w1 e arms w2 : fed e = true -> arms <> [] -> Forall calm_when arms -> calm (NMatch w1 e arms w2)
  | k_loop w1 v it c body w2 els w3 : fed it = true -> (forall e, c = Some e -> fed e = true) ->
      apart body = true -> Forall calm body -> apart els = true -> Forall calm els -> calm (NLoop w1 v it c body w2 els w3)
  | k_extends p : calm (NExtends p)
  | k_block w1 x ns w2 : apart ns = true -> Forall calm ns -> calm (NBlockDef w1 x ns w2)
  | k_include w p : inc p -> calm (NInclude w p)
  | k_import w p sc : calm (NImport w p sc)
  | k_macro w1 x args ns w2 : calm (NMacro w1 x args ns w2)
  | k_raw w1 l w2 : lit_ok l -> calm (NRaw w1 l w2)
  | k_break w : calm (NBreak w)
  | k_continue w : calm (NContinue w)
  | k_filter w1 x args ns w2 : (forall v, fed (insert_in_filter v (Filter x args)) = true) -> apart ns = true -> Forall calm ns ->
      names_of ns = [] -> calm (NFilterBlock w1 x args ns w2)
  with calm_cond : cond -> Prop :=
  | k_cond w t ns : (forall x, t = Some x -> fed (ct_expr x) = true) -> apart ns = true -> Forall calm ns -> calm_cond (Cond w t ns)
  with calm_when : when_ -> Prop :=
  | k_when w t ns : apart ns = true -> Forall calm ns -> calm_when (When w t ns).
  Definition calm_list (ns : list node) : Prop := apart ns = true /\ Forall calm ns.
End Calm.

Lemma nestl_in n l : In n l -> nest n <= nestl l.
Proof. induction l as [|m l IH]; intros []; cbn [nestl]; [subst; lia|]. specialize (IH H). lia. Qed.
Lemma nest_if w cs w' t ns : In (Cond w' t ns) cs -> 1 + nestl ns <= nest (NIf w cs).
Proof.
  intros H. cbn [nest]. enough (K : nestl ns <= (fix go (l : list cond) : N := match l with [] => 0 | Cond _ _ ns :: l' =>
    N.max ((fix many (l : list node) : N := match l with [] => 0 | n :: l' => N.max (nest n) (many l') end) ns) (go l') end) cs) by lia.
  induction cs as [|[w0 t0 n0] cs IH]; [destruct H|]; destruct H as [H|H].
  - injection H as -> -> ->. match goal with |- _ <= N.max ?x _ => change x with (nestl ns) end. lia.
  - specialize (IH H). lia.
Qed.
Lemma nest_match w1 e arms w2 w' t ns : In (When w' t ns) arms -> 2 + nestl ns <= nest (NMatch w1 e arms w2).
Proof.
  intros H. cbn [nest]. enough (K : nestl ns <= (fix go (l : list when_) : N := match l with [] => 0 | When _ _ ns :: l' =>
    N.max ((fix many (l : list node) : N := match l with [] => 0 | n :: l' => N.max (nest n) (many l') end) ns) (go l') end) arms) by lia.
  induction arms as [|[w0 t0 n0] cs IH]; [destruct H|]; destruct H as [H|H].
  - injection H as -> -> ->. match goal with |- _ <= N.max ?x _ => change x with (nestl ns) end. lia.
  - specialize (IH H). lia.
Qed.
Lemma nest_loop w1 v it c body w2 els w3 : nest (NLoop w1 v it c body w2 els w3) = 2 + N.max (nestl body) (nestl els).
Proof. reflexivity. Qed.
Lemma nest_filter w1 x a ns w2 : nest (NFilterBlock w1 x a ns w2) = nestl ns.
Proof. reflexivity. Qed.
Lemma nest_block w1 x ns w2 : nest (NBlockDef w1 x ns w2) = nestl ns.
Proof. reflexivity. Qed.
Lemma nest_macro w1 x a ns w2 : nest (NMacro w1 x a ns w2) = nestl ns.
Proof. reflexivity. Qed.
