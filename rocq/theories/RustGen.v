(** * Facts behind Prop_Rust.v and Prop_Token.v: the code generated from readable templates is a sequence of Rust tokens with matching
    brackets, and its expressions are made of the tokens TokenExpr.v is about. *)
From Verif Require Import Base Ws Ast Ident IdentFacts GenExpr Heritage Gen HeritageSpec HeritageFacts LitSpec RustText TreeSpec ParseSpec GenText RustSpec Sem RefSem RexprFacts SimExpr
  SimFacts PanicTop FlatFacts EndFacts LexFacts TplFacts ReadSpec ReadFacts GroupSpec GroupFacts GroupGen RustFacts RustShow TokenFacts TokenRead TokenExpr TokenShow.
From Coq Require Import Lia.
Local Open Scope N_scope.

(** ** Scopes: their names and what these stand for *)
Section Chain.
  Variables (K : str -> Prop) (A : rexpr -> Prop).
  Definition entry_ok (x : str * lmeta) : Prop := K (fst x) /\ forall r, l_refs (snd x) = Some r -> A r.
  Fixpoint chain_ok (m : chain) : Prop :=
    match m with Chain p ss => Forall (Forall entry_ok) ss /\ match p with Some m' => chain_ok m' | None => True end end.
  Lemma scope_get k s v : Forall entry_ok s -> lscope_get k s = Some v -> entry_ok (k, v).
  Proof. induction 1 as [|[k' v'] s H _ IH]; cbn [lscope_get]; [discriminate|]. destruct (str_eqb k k') eqn:E; [apply str_eqb_eq in E; subst k'; intros [= <-]; exact H|exact IH]. Qed.
  Lemma lfind_ok k ss v : Forall (Forall entry_ok) ss -> lfind k ss = Some v -> entry_ok (k, v).
  Proof. induction 1 as [|s ss H _ IH]; cbn [lfind]; [discriminate|]. destruct (lscope_get k s) eqn:E; [intros [= <-]; eapply scope_get; eassumption|exact IH]. Qed.
  Lemma ch_get_ok : forall m k v, chain_ok m -> ch_get m k = Some v -> entry_ok (k, v).
  Proof.
    fix IH 1. intros [p ss] k v [H1 H2]. cbn [ch_get]. destruct (lfind k ss) eqn:E; [intros [= <-]; eapply lfind_ok; eassumption|].
    destruct p as [m'|]; [apply IH, H2|discriminate].
  Qed.
  Lemma ch_insert_ok m k v m' : chain_ok m -> entry_ok (k, v) -> ch_insert m k v = Ok m' -> chain_ok m'.
  Proof.
    destruct m as [p [|s ss]]; cbn [ch_insert]; intros [H1 H2] HV E; [discriminate E|]. injection E as <-. split; [|exact H2].
    inversion H1; subst. constructor; [|assumption]. constructor; assumption.
  Qed.
  Lemma ch_push_ok m : chain_ok m -> chain_ok (ch_push m).
  Proof. destruct m as [p ss]. intros [H1 H2]. split; [constructor; [constructor|exact H1]|exact H2]. Qed.
  Lemma ch_pop_ok m m' : chain_ok m -> ch_pop m = Ok m' -> chain_ok m'.
  Proof. destruct m as [p [|s [|s' ss]]]; intros [H1 H2] E; try discriminate E. injection E as <-. inversion H1; subst. split; assumption. Qed.
  Lemma ch_parent_ok m : chain_ok m -> chain_ok (ch_with_parent m).
  Proof. intros H. split; [repeat constructor|exact H]. Qed.
  Lemma ch_empty_ok : chain_ok ch_empty.
  Proof. split; [repeat constructor|exact I]. Qed.
  Lemma insert_all_ok v : (forall r, l_refs v = Some r -> A r) -> forall ks m m', Forall K ks -> chain_ok m -> insert_all m v ks = Ok m' -> chain_ok m'.
  Proof.
    intros HV. induction ks as [|k ks IH]; intros m m' HK H E; cbn [insert_all] in E; [injection E as <-; exact H|]. inversion HK; subst.
    destruct (ch_insert m k v) as [m1| |] eqn:E1; try discriminate E. cbn in E. eapply IH; [assumption| |exact E]. eapply ch_insert_ok; [exact H| |exact E1]. split; assumption.
  Qed.
  Lemma visit_target_ok m b t p m' : chain_ok m -> Forall K (target_names t) -> visit_target m b t = Ok (p, m') -> chain_ok m'.
  Proof.
    unfold visit_target. intros H HK E. destruct (insert_all m _ (target_names t)) as [m1| |] eqn:E1; try discriminate E. cbn in E. injection E as <- <-.
    eapply insert_all_ok; [|exact HK|exact H|exact E1]. destruct b; discriminate.
  Qed.
End Chain.

Section Rust.
  Variables xs xc plain : N -> bool.
  Notation piece := (RustFacts.piece xs xc).
  Notation epiece := (RustFacts.epiece xs xc).
  Notation wordy := (TokenFacts.wordy xs xc).
  Notation wpath := (TokenRead.wpath xs xc).
  Notation fieldw := (TokenShow.fieldw xs xc).
  Notation xok := (TokenShow.xok xs xc).
  Notation xarg := (TokenShow.xarg xs xc).
  Notation pok := (RustShow.pok xs xc).
  Notation testok := (TokenShow.testok xs xc).
  Notation cokx := (TokenShow.cokx xs xc plain).
  Notation eok := (TokenShow.eok xs xc plain).
  Notation argsok := (TokenShow.argsok xs xc).
  Notation chain_all := (chain_ok wordy).
  Lemma number_one : rust_number (lit "1").
  Proof. apply (rn_int (lit "1") []); [|left; reflexivity]. exists 49, []. split; [reflexivity|]. split; [left; split; [discriminate|reflexivity]|constructor]. Qed.
  Lemma block_wordy id : wordy (filter_block_name id).
  Proof.
    left. unfold filter_block_name. eexists _, _. split; [reflexivity|]. split; [reflexivity|].
    assert (U : forall u, Forall (fun c => word_char xs xc c = true) (uint_str u)) by (induction u; cbn [uint_str]; constructor; try assumption; reflexivity).
    repeat (constructor; [reflexivity|]). apply U.
  Qed.
  (** ** Expressions *)
  Definition lexes_here (e : expr) : Prop :=
    match e with
    | BoolLit s => In s [lit "true"; lit "false"]
    | NumLit s => rust_number s
    | StrLit s => rust_string s
    | CharLit s => rust_char s
    | Var x => ident x /\ rust_word xs xc x
    | Path p => wpath p
    | Attr _ x => piece (normalize_identifier x) /\ fieldw (normalize_identifier x)
    | Filter n l => wordy n /\ l <> []
    | Unary op _ => In op unary_ops
    | BinOp op _ _ => In op binary_ops
    | Range op _ _ => In op range_ops
    | RustMacro p a => wpath p /\ piece a
    | Generated s => wordy s
    | _ => True
    end.
  Definition lexing (e : expr) : Prop := forall e', sub e' e -> lexes_here e'.
  Lemma lexing_here e : lexing e -> lexes_here e.
  Proof. intros H. apply H. constructor. Qed.
  Lemma lexing_kids e : lexing e -> Forall lexing (kids e).
  Proof. intros H. apply Forall_forall. intros k K e' S. apply H. econstructor; eassumption. Qed.
  Lemma lexing_intro e : lexes_here e -> Forall lexing (kids e) -> lexing e.
  Proof. intros H K e' S. inversion S; subst; [exact H|]. rewrite Forall_forall in K. eapply K; eassumption. Qed.
  (** What an alias may be: a name is not a keyword, so it is not escaped again. *)
  Definition refok (r : rexpr) : Prop := xok r /\ forall x, r = RName x -> ~ In x rust_keywords.
  Lemma norm_not_keyword s : ~ In (normalize_identifier s) rust_keywords.
  Proof.
    destruct (in_dec (list_eq_dec N.eq_dec) s rust_keywords) as [K|K]; [rewrite (normalize_keyword _ K)|rewrite (normalize_other _ K); exact K].
    intros Q. assert (F : forallb (fun k => negb (starts_with (lit "r#") k)) rust_keywords = true) by (vm_compute; reflexivity).
    rewrite forallb_forall in F. apply F in Q. discriminate Q.
  Qed.
  Lemma self_wordy : wordy (lit "self").
  Proof. apply word_lit; [reflexivity|reflexivity|discriminate]. Qed.
  Lemma self_ok x : wordy x -> xok (RField self x).
  Proof. intros H. apply x_field; [apply x_name, self_wordy|apply wordy_piece, H|left; exact H]. Qed.
  Lemma keyword_plain s : In s rust_keywords -> hd_error s <> Some 40 /\ ~ In 46 s.
  Proof.
    intros H. assert (F : forallb (fun k => match k with c :: _ => negb (c =? 40) | [] => false end && forallb (fun c => negb (c =? 46)) k) rust_keywords = true) by (vm_compute; reflexivity).
    rewrite forallb_forall in F. apply F in H. apply andb_prop in H as [H1 H2]. split.
    - destruct s as [|c s]; [discriminate H1|]. cbn. intros [= ->]. discriminate H1.
    - rewrite forallb_forall in H2. intros I. apply H2 in I. discriminate I.
  Qed.
  Section Visit.
    Variables (inp : ginput) (m : chain).
    Hypothesis Hm : chain_all refok m.
    Hypothesis HE : readable_escapers xs xc inp.
    Lemma escaper_piece : piece (f_escaper inp).
    Proof. apply closed_piece, HE. Qed.
    Lemma named_piece x esc : named_escaper inp x = Ok esc -> piece esc.
    Proof.
      unfold named_escaper. destruct (find _ (f_escapers inp)) as [[l e]|] eqn:F; [|discriminate]. intros [= <-]. apply find_some in F as [F _]. eapply closed_piece, (proj2 HE), F.
    Qed.
    Lemma resolve_ok s r : ch_resolve m s = Some r -> refok r.
    Proof.
      unfold ch_resolve. destruct (ch_get m (normalize_identifier s)) as [v|] eqn:E; [|discriminate]. intros [= <-].
      destruct (ch_get_ok _ _ _ _ _ Hm E) as [P A]. cbn [fst snd] in P, A.
      destruct (l_refs v) as [r|] eqn:R; [exact (A _ eq_refl)|]. split; [apply x_name, P|]. intros x [= <-]. apply norm_not_keyword.
    Qed.
    Lemma or_self_ok s : wordy (normalize_identifier s) -> refok (ch_resolve_or_self m s).
    Proof. intros H. unfold ch_resolve_or_self. destruct (ch_resolve m s) eqn:E; [exact (resolve_ok _ _ E)|]. split; [apply self_ok, H|discriminate]. Qed.
    Lemma var_ok s : wordy (normalize_identifier s) -> xok (visit_var m s).
    Proof.
      intros H. unfold visit_var. destruct (str_eqb s (lit "self")) eqn:E; [apply str_eqb_eq in E; subst s; apply x_name, self_wordy|].
      destruct (or_self_ok s H) as [R K]. destruct (ch_resolve_or_self m s); try exact R. cbn [normalize_text]. rewrite (normalize_other _ (K _ eq_refl)). exact R.
    Qed.
    Definition vlex (e : expr) : Prop := lexing e -> forall r wr, visit_expr inp m e = Ok (r, wr) -> xok r.
    Lemma vlex_sub e r : vlex e -> lexing e -> v_sub inp m e = Ok r -> xok r.
    Proof. intros H F E. unfold v_sub in E. inv_ok E. eapply H; eassumption. Qed.
    Lemma vlex_subs l : Forall vlex l -> Forall lexing l -> forall rs, v_subs inp m l = Ok rs -> Forall xok rs.
    Proof.
      induction 1 as [|e l He _ IH]; intros F rs E; cbn [v_subs] in E; inv_ok E; [constructor|]. inversion F; subst. constructor; [|apply IH; assumption].
      (eapply vlex_sub; [| |eassumption]; assumption).
    Qed.
    Lemma vlex_arg e a : vlex e -> lexing e -> v_arg inp m e = Ok a -> xarg a.
    Proof. intros H F E. unfold v_arg in E. inv_ok E. unfold xarg. cbn [snd]. (eapply vlex_sub; [| |eassumption]; assumption). Qed.
    Lemma vlex_args l : Forall vlex l -> Forall lexing l -> forall rs, v_args inp m l = Ok rs -> Forall xarg rs.
    Proof.
      induction 1 as [|e l He _ IH]; intros F rs E; cbn [v_args] in E; inv_ok E; [constructor|]. inversion F; subst. constructor; [|apply IH; assumption].
      eapply vlex_arg; eassumption.
    Qed.
    Lemma subs_nil l rs : v_subs inp m l = Ok rs -> l <> [] -> rs <> [].
    Proof. destruct l; [contradiction|]. cbn [v_subs]. intros E _. inv_ok E. discriminate. Qed.
    Lemma loop_field x : wordy x -> xok (RField loop_item x).
    Proof. intros H. apply x_field; [apply x_name; apply word_lit; [reflexivity|reflexivity|discriminate]|apply wordy_piece, H|left; exact H]. Qed.
    Lemma loop_attr_ok x r : loop_attr x = Ok r -> xok r.
    Proof. unfold loop_attr. repeat match goal with |- (if ?b then _ else _) = _ -> _ => destruct b end; try discriminate; intros [= <-];
      [apply x_grp, x_bin; [cbn; tauto| |apply x_num, number_one]| | |]; (apply loop_field, word_lit; [reflexivity|reflexivity|discriminate]). Qed.
    Lemma visit_lexes e : vlex e.
    Proof.
      pose proof escaper_piece as PE. induction e using expr_ind'; unfold vlex; intros F r0 wr E; pose proof (lexing_here _ F) as LH; pose proof (lexing_kids _ F) as FK; cbn [kids] in FK; cbn [lexes_here] in LH.
      - cbn [visit_expr] in E. inv_ok E. apply x_bool, LH.
      - cbn [visit_expr] in E. inv_ok E. apply x_num, LH.
      - cbn [visit_expr] in E. inv_ok E. apply x_str, LH.
      - cbn [visit_expr] in E. inv_ok E. apply x_chr, LH.
      - cbn [visit_expr] in E. inv_ok E. apply var_ok, norm_wordy; apply LH.
      - cbn [visit_expr] in E. inv_ok E. apply x_path, LH.
      - rewrite visit_arr in E. inv_ok E. apply x_arr. exact (vlex_subs _ H FK _ E0).
      - cbn [visit_expr] in E. destruct (var_loop e).
        + change (v_plain (loop_attr x) = Ok (r0, wr)) in E. inv_ok E. eapply loop_attr_ok; eassumption.
        + change (v_plain (let! r := v_sub inp m e in Ok (RField r (normalize_identifier x))) = Ok (r0, wr)) in E. inv_ok E. inversion FK; subst.
          apply x_field; [(eapply vlex_sub; [| |eassumption]; assumption)|apply LH|apply LH].
      - change (v_plain (let! r := v_sub inp m e1 in let! k := v_sub inp m e2 in Ok (RRef (RIndex r k))) = Ok (r0, wr)) in E. inv_ok E.
        inversion FK as [|? ? K1 K]; subst. inversion K as [|? ? K2 _]; subst. apply x_ref, x_index; (eapply vlex_sub; [| |eassumption]; assumption).
      - destruct LH as [PN NE]. pose proof (vlex_args l H FK) as QA. pose proof (vlex_subs l H FK) as QS.
        assert (HD : forall a, In a l -> forall x, v_arg inp m a = Ok x -> xarg x).
        { intros a Ha x Hx. rewrite Forall_forall in *. eapply vlex_arg; eauto. }
        assert (HS : forall a, l = [a] -> forall x, v_sub inp m a = Ok x -> xok x).
        { intros a -> x Hx. inversion H; subst. inversion FK; subst. (eapply vlex_sub; [| |eassumption]; assumption). }
        rewrite visit_filter in E.
        destruct (str_eqb n (lit "as_ref")).
        { destruct l as [|a [|]]; try discriminate E. inv_ok E. apply x_ref. exact (HS a eq_refl _ E0). }
        destruct (str_eqb n (lit "deref")).
        { destruct l as [|a [|]]; try discriminate E. inv_ok E. apply x_deref. exact (HS a eq_refl _ E0). }
        destruct (str_eqb n (lit "escape") || str_eqb n (lit "e")).
        { destruct l as [|a [|b [|c l]]]; try discriminate E; [|destruct b; try discriminate E|destruct b; discriminate E].
          - inv_ok E. apply x_escape; [exact PE|]. apply (HD a (or_introl eq_refl) _ E0).
          - inv_ok E. apply x_escape; [eapply named_piece; eassumption|]. eapply (HD a (or_introl eq_refl)); eassumption. }
        destruct (str_eqb n (lit "fmt")).
        { destruct l as [|a [|b [|c l]]]; try discriminate E; destruct b; try discriminate E. inv_ok E. pose proof (HD a (or_introl eq_refl) _ E0) as Q.
          inversion FK as [|? ? _ K]; subst. inversion K as [|? ? K2 _]; subst. apply x_format; [exact (lexing_here _ K2)|constructor; [exact Q|constructor]]. }
        destruct (str_eqb n (lit "format")).
        { destruct l as [|a l]; try discriminate E; destruct a; try discriminate E. inv_ok E. inversion H; subst. inversion FK as [|? ? K1 K2]; subst.
          apply x_format; [exact (lexing_here _ K1)|]. eapply vlex_args; eassumption. }
        destruct (str_eqb n (lit "join")).
        { inv_ok E. apply x_join; [|intros Q; apply map_eq_nil in Q; exact (subs_nil _ _ E0 NE Q)]. pose proof (QS _ E0) as R. clear - R.
          induction R; constructor; [apply x_ref; assumption|assumption]. }
        destruct (str_eqb n (lit "json") || str_eqb n (lit "tojson")).
        { destruct (negb _); [discriminate E|]; destruct l as [|a [|]]; try discriminate E; inv_ok E. pose proof (HD a (or_introl eq_refl) _ E0) as Q.
          apply x_filter; [|constructor; [exact Q|constructor]]. apply word_lit; [reflexivity|reflexivity|discriminate]. }
        destruct (str_eqb n (lit "safe")).
        { destruct l as [|a [|]]; try discriminate E; inv_ok E. apply x_safe; [exact PE|]. exact (HD a (or_introl eq_refl) _ E0). }
        inv_ok E. apply x_filter; [exact PN|exact (QA _ E0)].
      - change (v_plain (v_sub inp m e) = Ok (r0, wr)) in E. inv_ok E. inversion FK; subst. (eapply vlex_sub; [| |eassumption]; assumption).
      - change (v_plain (let! r := v_sub inp m e in Ok (RUn o r)) = Ok (r0, wr)) in E. inv_ok E. inversion FK; subst. apply x_un; [exact LH|]. (eapply vlex_sub; [| |eassumption]; assumption).
      - change (v_plain (let! a := v_sub inp m e1 in let! b := v_sub inp m e2 in Ok (RBin o a b)) = Ok (r0, wr)) in E. inv_ok E.
        inversion FK as [|? ? K1 K]; subst. inversion K as [|? ? K2 _]; subst. apply x_bin; [exact LH| |]; (eapply vlex_sub; [| |eassumption]; assumption).
      - change (v_plain (let! a := v_opt inp m l in let! b := v_opt inp m r in Ok (RRange o a b)) = Ok (r0, wr)) in E. inv_ok E.
        rewrite Forall_app in FK. destruct FK as [FL FR]. apply x_range; [exact LH| |].
        + intros y ->. unfold v_opt in E0. destruct l as [x|]; [|discriminate E0]. inv_ok E0. inversion FL; subst. (eapply vlex_sub; [| |eassumption]; auto).
        + intros y ->. unfold v_opt in E1. destruct r as [x|]; [|discriminate E1]. inv_ok E1. inversion FR; subst. (eapply vlex_sub; [| |eassumption]; auto).
      - change (v_plain (let! r := v_sub inp m e in Ok (RGrp r)) = Ok (r0, wr)) in E. inv_ok E. inversion FK; subst. apply x_grp. (eapply vlex_sub; [| |eassumption]; assumption).
      - rewrite visit_tuple in E. inv_ok E. apply x_tup. exact (vlex_subs _ H FK _ E0).
      - inversion FK as [|? ? K1 K2]; subst. pose proof (vlex_args l H K2) as QA.
        assert (D : v_plain (let! r := v_sub inp m e in let! rs := v_args inp m l in Ok (RCall r rs)) = Ok (r0, wr) -> xok r0).
        { intros E1. inv_ok E1. apply x_call; [|exact (QA _ E2)]. (eapply vlex_sub; [| |eassumption]; assumption). }
        rewrite visit_call in E. destruct e; try (apply D; exact E).
        + cbv zeta in E. inv_ok E. apply x_call; [|exact (QA _ E0)]. pose proof (lexing_here _ K1) as [L1 L2]. pose proof (norm_wordy _ _ _ L1 L2) as NP.
          destruct (ch_resolve m s) as [c|] eqn:C; [exact (proj1 (resolve_ok _ _ C))|]. apply x_grp, x_ref, self_ok, NP.
        + destruct e; try (apply D; exact E). destruct (str_eqb s (lit "loop")); [|apply D; exact E].
          destruct (str_eqb name (lit "cycle")); [|discriminate E].
          assert (C : forall x, l = [x] -> v_plain (let! r := v_sub inp m x in Ok (RCycle r)) = Ok (r0, wr) -> xok r0).
          { intros x -> Ex. inv_ok Ex. inversion H; subst. inversion K2; subst. apply x_cycle. (eapply vlex_sub; [| |eassumption]; assumption). }
          destruct l as [|x [|]]; try discriminate E; [|destruct x as [| | | | | |[|]| | | | | | | | | | | | |]; discriminate E].
          destruct x as [| | | | | |[|]| | | | | | | | | | | | |]; try discriminate E; apply (C _ eq_refl E).
      - cbn [visit_expr] in E. inv_ok E. apply x_macro; apply LH.
      - change (v_plain (let! r := v_sub inp m e in Ok (RTry r)) = Ok (r0, wr)) in E. inv_ok E. inversion FK; subst. apply x_try. (eapply vlex_sub; [| |eassumption]; assumption).
      - cbn [visit_expr] in E. inv_ok E. apply x_name, LH.
    Qed.
    (** The text of an attribute contains a point or a parenthesis. *)
    Lemma attr_not_keyword e x r wr : visit_expr inp m (Attr e x) = Ok (r, wr) -> ~ In (show r) rust_keywords /\ forall s, r <> RName s.
    Proof.
      intros E. cbn [visit_expr] in E. destruct (var_loop e).
      - change (v_plain (loop_attr x) = Ok (r, wr)) in E. inv_ok E. unfold loop_attr in E.
        repeat match type of E with (if ?b then _ else _) = _ => destruct b end; inv_ok E; try discriminate E; (split; [|discriminate]); intros K; apply keyword_plain in K as [K1 K2];
          [destruct (K1 eq_refl)|destruct K2; vm_compute; tauto|destruct K2; vm_compute; tauto|destruct K2; vm_compute; tauto].
      - change (v_plain (let! r := v_sub inp m e in Ok (RField r (normalize_identifier x))) = Ok (r, wr)) in E. inv_ok E. split; [|discriminate].
        intros K. apply keyword_plain in K as [_ K]. apply K. cbn [show]. apply in_app_iff. right. apply in_app_iff. left. left. reflexivity.
    Qed.
  End Visit.

  (** ** What is required of a node *)
  Definition tgood (t : target) : Prop := pok (norm_target t) /\ Forall wordy (target_names t).
  Definition own (n : node) : Prop :=
    match n with
    | NExpr _ e => lexing e
    | NLet _ t v => tgood t /\ forall e, v = Some e -> lexing e
    | NMatch _ e arms _ => lexing e /\ forall w t ns, In (When w t ns) arms -> tgood t
    | NCall _ _ _ args => Forall lexing args
    | NIf _ cs => (exists w t ns rest, cs = Cond w (Some t) ns :: rest) /\
                  forall w t ns, In (Cond w (Some t) ns) cs -> lexing (ct_expr t) /\ forall p, ct_target t = Some p -> tgood p
    | NLoop _ t it c _ _ _ _ => tgood t /\ lexing it /\ forall e, c = Some e -> lexing e
    | NFilterBlock _ f a _ _ => forall x, wordy x -> lexing (insert_in_filter x (Filter f a))
    | NMacro _ _ ps _ _ => Forall wordy ps
    | _ => True
    end.
Definition good (n : node) : Prop := forall b b' m, inside b n b' m -> own m.
Lemma good_own n : good n -> own n.
Proof. intros H. apply (H false false). constructor. Qed.
Lemma good_child b n b' m : good n -> child b n b' m -> good m.
Proof. intros H C b1 b2 k I. destruct (inside_any _ _ _ _ I b') as [b3 I']. apply (H b b3). eapply in_child; eassumption. Qed.
Lemma good_children n ns : good n -> (forall m, In m ns -> exists b b', child b n b' m) -> Forall good ns.
Proof. intros H C. apply Forall_forall. intros m Hm. destruct (C m Hm) as (b & b' & K). eapply good_child; eassumption. Qed.
Lemma good_bodies n ns : good n -> In ns (bodies n) -> Forall good ns.
Proof.
  intros H Hn. apply (good_children n ns H). intros m Hm. destruct n; cbn in Hn; try contradiction.
  - apply in_map_iff in Hn as ([w' t b] & <- & Hc). exists false, false. eapply ch_if; eassumption.
  - apply in_map_iff in Hn as ([w' t b] & <- & Hc). exists false, false. eapply ch_match; eassumption.
  - destruct Hn as [<-|[<-|[]]]; exists false; eexists; [eapply ch_body; eassumption|eapply ch_else; eassumption].
  - destruct Hn as [<-|[]]. exists false, false. eapply ch_block; eassumption.
Qed.

(** ** Contexts and heritage *)
Record cgood (c : context) : Prop := {
  gc_nodes : Forall good (c_nodes c);
  gc_blocks : forall x d, In (x, d) (c_blocks c) -> Forall good (b_nodes d);
  gc_macros : forall x d, In (x, d) (c_macros c) -> Forall wordy (k_args d) /\ Forall good (k_nodes d)
}.
Definition dgood (bs : list (str * list (context * block_def))) : Prop :=
  forall x l c d, In (x, l) bs -> In (c, d) l -> cgood c /\ Forall good (b_nodes d).
Definition hgood (h : heritage) : Prop := cgood (h_root h) /\ dgood (h_blocks h).
Lemma merge_cgood o c : cgood o -> cgood c -> cgood (merge_context o c).
Proof.
  intros [_ _ O3] [C1 C2 C3]. constructor; cbn [merge_context c_nodes c_blocks c_macros]; [exact C1|exact C2|].
  intros x d H. apply merge_macros_in in H as [H|H]; eauto.
Qed.
Lemma context_node_cgood find path top n c c' more : good n -> cgood c -> context_node find path top n c = Ok (c', more) -> cgood c' /\ Forall (Forall good) more.
Proof.
  intros HN [C1 C2 C3] E. destruct n; cbn [context_node] in E; try solve [injection E as <- <-; split; [constructor; assumption|constructor]].
  - injection E as <- <-. split; [constructor; assumption|]. apply Forall_forall. intros ns Hns. apply (good_bodies _ _ HN). exact Hns.
  - injection E as <- <-. split; [constructor; assumption|]. apply Forall_forall. intros ns Hns. apply (good_bodies _ _ HN). exact Hns.
  - injection E as <- <-. split; [constructor; assumption|]. apply Forall_forall. intros ns Hns. apply (good_bodies _ _ HN). exact Hns.
  - destruct top; [|discriminate E]. destruct (c_extends c); [discriminate E|]. destruct (find path0 path); try discriminate E. cbn in E. injection E as <- <-. split; [constructor; assumption|constructor].
  - injection E as <- <-. assert (G : Forall good nodes) by (apply (good_bodies _ _ HN); left; reflexivity).
    split; [|constructor; [exact G|constructor]]. constructor; cbn [c_nodes c_blocks c_macros]; [exact C1| |exact C3].
    intros x d H. apply in_put in H as [H|[-> ->]]; [eapply C2; exact H|exact G].
  - destruct top; [|discriminate E]. destruct (find path0 path); try discriminate E. cbn in E. injection E as <- <-. split; [constructor; assumption|constructor].
  - destruct top; [|discriminate E]. injection E as <- <-. split; [|constructor]. constructor; cbn [c_nodes c_blocks c_macros]; [exact C1|exact C2|].
    intros x d H. apply in_put in H as [H|[-> ->]]; [eapply C3; exact H|]. split; [exact (good_own _ HN)|]. apply (good_children _ _ HN). intros m Hm. exists false, false. eapply ch_macro; exact Hm.
Qed.
Lemma context_nodes_cgood find path top : forall ns c stack c' stack', Forall good ns -> cgood c -> Forall (Forall good) stack ->
  context_nodes find path top ns c stack = Ok (c', stack') -> cgood c' /\ Forall (Forall good) stack'.
Proof.
  induction ns as [|n ns IH]; intros c stack c' stack' HN HC HS E; cbn [context_nodes] in E; [injection E as <- <-; auto|].
  apply rbind_inv in E as ([c1 more] & E1 & E). inversion HN as [|? ? H1 H2]; subst. destruct (context_node_cgood _ _ _ _ _ _ _ H1 HC E1) as [G1 G2].
  eapply IH; [exact H2|exact G1| |exact E]. apply Forall_app. split; [apply Forall_rev, G2|exact HS].
Qed.
Lemma context_loop_cgood find path : forall fuel top stack c c', Forall (Forall good) stack -> cgood c -> context_loop find fuel path top stack c = GOk c' -> cgood c'.
Proof.
  induction fuel as [|f IH]; intros top stack c c' HS HC E; (destruct stack as [|ns stack]; [injection E as <-; exact HC|]); cbn [context_loop] in E; [discriminate E|].
  inversion HS as [|? ? H1 H2]; subst. apply gbind_inv in E as ([c1 st1] & E1 & E). apply of_res_inv in E1.
  destruct (context_nodes_cgood _ _ _ _ _ _ _ _ H1 HC H2 E1) as [G1 G2]. eapply IH; [exact G2|exact G1|exact E].
Qed.
Lemma contexts_cgood find templates contexts : (forall p ns, In (p, ns) templates -> Forall good ns) -> build_contexts find templates = GOk contexts ->
  forall p c, get p contexts = Some c -> cgood c.
Proof.
  revert contexts. induction templates as [|[p ns] l IH]; intros contexts HT E q c G; cbn [build_contexts] in E.
  - injection E as <-. discriminate G.
  - apply gbind_inv in E as (c1 & E1 & E). apply gbind_inv in E as (cs & E2 & E). injection E as <-. cbn [get] in G.
    destruct (str_eqb q p); [|eapply IH; [intros; eapply HT; right; eassumption|exact E2|exact G]]. injection G as <-.
    assert (HN : Forall good ns) by (eapply HT; left; reflexivity). eapply context_loop_cgood; [|constructor|exact E1]; cbn; [repeat constructor; exact HN|exact HN| |]; contradiction.
Qed.
Section Her.
  Variable contexts : list (str * context).
  Hypothesis HG : forall p c, get p contexts = Some c -> cgood c.
  Lemma push_cgood c bs x : cgood c -> dgood bs -> In x (c_blocks c) -> dgood (push_block c x bs).
  Proof.
    intros HC HB Hx. destruct x as [x d]. unfold push_block. cbn [fst snd]. intros y l c' d' H1 H2. apply in_put in H1 as [H1|[-> ->]]; [eapply HB; eassumption|].
    pose proof (gc_blocks _ HC _ _ Hx) as GD. destruct (get x bs) as [l0|] eqn:E.
    - apply in_app_iff in H2 as [H2|[[= <- <-]|[]]]; [eapply HB; [apply get_in; exact E|exact H2]|split; assumption].
    - destruct H2 as [[= <- <-]|[]]. split; assumption.
  Qed.
  Lemma heritage_loop_cgood : forall fuel c bs h, cgood c -> dgood bs -> heritage_loop fuel contexts c bs = GOk h -> hgood h.
  Proof.
    induction fuel as [|f IH]; intros c bs h HC HB E; cbn [heritage_loop] in E; destruct (c_extends c) as [p|]; try discriminate E; try (injection E as <-; split; assumption).
    destruct (get p contexts) as [c'|] eqn:G; [|discriminate E]. pose proof (HG _ _ G) as HC'. eapply IH; [exact HC'| |exact E].
    assert (K : forall l, incl l (c_blocks c') -> forall bs, dgood bs -> dgood (fold_left (fun bs x => push_block c' x bs) l bs)).
    { clear - HC'. induction l as [|x l IH]; intros HI bs HB; [exact HB|]. cbn [fold_left]. apply IH; [intros y Hy; apply HI; right; exact Hy|].
      apply push_cgood; [exact HC'|exact HB|apply HI; left; reflexivity]. }
    apply K; [intros y Hy; exact Hy|exact HB].
  Qed.
  Lemma heritage_new_cgood fuel c h : cgood c -> heritage_new fuel contexts c = GOk h -> hgood h.
  Proof.
    intros HC E. eapply heritage_loop_cgood; [exact HC| |exact E]. intros x l c' d H1 H2. apply in_map_iff in H1 as ([y e] & [= <- <-] & H1).
    destruct H2 as [[= <- <-]|[]]. split; [exact HC|]. eapply (gc_blocks _ HC). exact H1.
  Qed.
End Her.

  (** ** Code *)
  Lemma cok_emit st s : eok s -> cokx (emit st [s]).
  Proof. intros H. unfold emit. destruct (o_discard st); [apply cok_nil|apply cok_one, H]. Qed.
  Lemma cok_around st s c : eok s -> cokx c -> cokx (emit_around st s c).
  Proof. intros H1 H2. unfold emit_around. destruct (o_discard st); [exact H2|apply cok_one, H1]. Qed.
  Lemma cok_concat {A} (f : A -> list stmt) l : Forall (fun a => cokx (f a)) l -> cokx (concat (map f l)).
  Proof. induction 1 as [|a l H _ IH]; cbn [map concat]; [apply cok_nil|]. apply cok_app; assumption. Qed.
  Definition branch_ok (b : rtest * list stmt) : Prop := testok (fst b) /\ cokx (snd b).

  (** ** The state *)
  Definition wok (w : writable) : Prop := match w with WLit _ => True | WExpr e => lexing e | WGen r _ => xok r end.
  Definition sok (st : gst) : Prop := chain_all refok (s_locals st) /\ Forall wok (s_buf st).
  Definition gok (r : gres gen) : Prop := gd true (fun x : gen => cokx (fst (fst x)) /\ sok (snd x)) r.

  Section Gen.
  Variables (inp : ginput) (contexts : list (str * context)) (find : str -> str -> res str).
  Hypothesis HE : readable_escapers xs xc inp.
  Lemma root_reads m e r : chain_all refok m -> lexing e -> visit_expr_root inp m e = Ok r -> xok r.
  Proof. intros H F E. eapply (vlex_sub inp m); [apply visit_lexes; [exact H|exact HE]|exact F|exact E]. Qed.
  (** States *)
  Lemma sok_locals m st : chain_all refok m -> sok st -> sok (set_locals m st).
  Proof. intros H [_ B]. split; assumption. Qed.
  Lemma sok_push ws st : Forall wok ws -> sok st -> sok (push ws st).
  Proof. intros H [L B]. unfold push. destruct (s_discard st); split; auto. cbn. apply Forall_app. auto. Qed.
  Lemma sok_lits ls st : sok st -> sok (push_lits ls st).
  Proof. apply sok_push. apply Forall_forall. intros w Hw. apply in_map_iff in Hw as (s & <- & _). exact I. Qed.
  Lemma sok_flush l st : sok st -> sok (do_flush_ws inp l st).
  Proof. intros H. unfold do_flush_ws. destruct (flush_ws _ _ _). apply sok_lits. exact H. Qed.
  Lemma sok_prepare l st : sok st -> sok (do_prepare_ws inp l st).
  Proof. intros [L B]. split; assumption. Qed.
  Lemma sok_ws w st : sok st -> sok (do_handle_ws inp w st).
  Proof. intros H. apply sok_prepare, sok_flush, H. Qed.
  Lemma sok_open st : sok st -> sok (open_brace st).
  Proof. intros H. unfold open_brace. destruct (o_discard st); exact H. Qed.
  Lemma sok_push_locals st : sok st -> sok (push_locals st).
  Proof. intros H. apply sok_locals; [apply ch_push_ok, H|exact H]. Qed.
  Lemma gd_dedent_ok st : sok st -> gd true sok (dedent st).
  Proof. intros H. unfold dedent. destruct (o_indent st =? 0); [exact I|exact H]. Qed.
  Lemma gd_close_ok st : sok st -> gd true sok (close_brace st).
  Proof. intros H. unfold close_brace. destruct (o_discard st); [exact H|]. eapply gd_bind; [apply gd_dedent_ok, H|]. intros s Hs. eapply gd_bind; [apply gd_any|]. intros _ _. exact Hs. Qed.
  Lemma gd_pop_ok st : sok st -> gd true sok (pop_locals st).
  Proof.
    intros H. unfold pop_locals. eapply (gd_bind true (chain_all refok)); [apply gd_of; intros m E; eapply ch_pop_ok; [apply H|exact E]|].
    intros m Hm. apply sok_locals; assumption.
  Qed.
  Lemma gd_target st b t : sok st -> tgood t -> gd true (fun x => pok (fst x) /\ chain_all refok (snd x)) (of_res (visit_target (s_locals st) b t)).
  Proof. intros H P. apply gd_of. intros [p m] E. split; [apply grows_target in E as (_ & -> & _); apply P|eapply visit_target_ok; [apply H|apply P|exact E]]. Qed.

  (** Writes *)
  Lemma named_ok r wr ca p : xok r -> argsok (p_args p) -> argsok (p_args (named_expression inp r wr ca p)).
  Proof.
    intros H A. unfold named_expression. assert (K : xok (if wr : bool then r else RMarkup (f_escaper inp) r)).
    { destruct wr; [exact H|]. apply x_markup; [apply escaper_piece, HE|exact H]. }
    assert (S : forall i, argsok (p_args p ++ [(i, if wr : bool then r else RMarkup (f_escaper inp) r)])) by (intros i; apply Forall_app; split; [exact A|constructor; [exact K|constructor]]).
    destruct (cache_get _ _) as [id|]; [destruct ca|]; cbn [p_args]; auto.
  Qed.
  Lemma format_ok m : chain_all refok m -> forall ws p p', Forall wok ws -> argsok (p_args p) -> format_loop inp m ws p = Ok p' -> argsok (p_args p').
  Proof.
    intros Hm. induction ws as [|w ws IH]; intros p p' HW HA E; cbn [format_loop] in E; [injection E as <-; exact HA|]. inversion HW as [|? ? W1 W2]; subst. destruct w.
    - eapply IH; [exact W2| |exact E]. exact HA.
    - destruct (visit_expr inp m e) as [[r wr]| |] eqn:EV; try discriminate E. cbn in E. eapply IH; [exact W2| |exact E]. apply named_ok; [|exact HA].
      eapply visit_lexes; eassumption.
    - eapply IH; [exact W2| |exact E]. apply named_ok; [exact W1|exact HA].
  Qed.
  Definition parts_ok (p : wparts) : Prop := match p with FmtParts _ args => argsok args | _ => True end.
  Lemma prepare_ok m ws n z p n' : chain_all refok m -> Forall wok ws -> prepare_format inp m ws n = Ok (z, p, n') -> parts_ok p.
  Proof.
    intros Hm HW E. unfold prepare_format in E. destruct ws as [|w ws]; [injection E as <- <- <-; exact I|]. destruct (all_lits (w :: ws)); [injection E as <- <- <-; exact I|].
    apply rbind_inv in E as (p' & E1 & E). injection E as <- <- <-. eapply format_ok; [exact Hm|exact HW| |exact E1]. constructor.
  Qed.
  Lemma gok_write st : sok st -> gok (write_buf_writable inp st).
  Proof.
    intros H. unfold write_buf_writable, gok. eapply (gd_bind true (fun x => parts_ok (snd (fst x)))).
    { apply gd_of. intros [[z p] n] E. eapply prepare_ok; [apply H|apply H|exact E]. }
    intros [[z ps] nm] HP. cbn [fst snd] in HP. assert (S : sok (set_named nm (set_buf [] st))) by (split; [apply H|constructor]). destruct ps.
    - split; [apply cok_nil|exact S].
    - eapply gd_bind; [apply gd_any|]. intros _ _. split; [apply cok_emit, e_write|exact S].
    - destruct (63 <=? o_indent st); [exact I|]. eapply gd_bind; [apply gd_any|]. intros _ _. split; [apply cok_emit, e_fmt, HP|exact S].
  Qed.
  Lemma gd_lit_ok l st : sok st -> gd true sok (do_visit_lit l st).
  Proof. intros H. unfold do_visit_lit. destruct (visit_lit l (s_ws st)) as [[o w]|]; [|exact I]. apply sok_lits. exact H. Qed.
  Lemma gok_let w var val st : tgood var -> (forall e, val = Some e -> lexing e) -> sok st -> gok (write_let inp w var val st).
  Proof.
    intros HT HV H. pose proof (sok_ws w st H) as H1. unfold write_let, gok. destruct val as [e|].
    - eapply (gd_bind true xok); [apply gd_of; intros r E; eapply root_reads; [apply H1|apply HV; reflexivity|exact E]|].
      intros r Hr. eapply gd_bind; [apply gd_any|]. intros sh _.
      eapply (gd_bind true (fun x : gen => cokx (fst (fst x)) /\ sok (snd x))); [destruct sh; [apply gok_write, H1|split; [apply cok_nil|exact H1]]|].
      intros [[c z] s] [C S]. cbn [fst snd] in C, S. eapply gd_bind; [apply gd_any|]. intros _ _. eapply gd_bind; [apply gd_target; [exact S|exact HT]|]. intros [p m] [Hp Hm]. cbn [fst snd] in Hp, Hm.
      split; [|apply sok_locals; [exact Hm|exact S]]. cbn [fst]. apply cok_app; [exact C|]. apply cok_emit.
      match goal with |- TokenShow.eok _ _ _ (if ?b then _ else _) => destruct b end; [apply e_let|apply e_assign]; assumption.
    - eapply gd_bind; [apply gok_write, H1|]. intros [[c z] s] [C S]. cbn [fst snd] in C, S. eapply gd_bind; [apply gd_any|]. intros _ _. eapply gd_bind; [apply gd_target; [exact S|exact HT]|]. intros [p m] [Hp Hm].
      split; [|apply sok_locals; [exact Hm|exact S]]. cbn [fst]. apply cok_app; [exact C|]. apply cok_emit, e_declare, Hp.
  Qed.

  (** Tests *)
  Definition test_ok (t : option cond_test) : Prop := forall t', t = Some t' -> lexing (ct_expr t') /\ forall p, ct_target t' = Some p -> tgood p.
  Lemma gd_test_ok first t st : test_ok t -> sok st -> gd true (fun x => testok (fst x) /\ (t <> None -> fst x <> RElse) /\ sok (snd x)) (if_test inp first t st).
  Proof.
    intros HT H. unfold if_test. destruct t as [t|].
    - destruct (HT t eq_refl) as [HL HP]. eapply (gd_bind true sok); [destruct first; [exact H|apply gd_dedent_ok, H]|]. intros s Hs.
      eapply gd_bind; [apply gd_any|]. intros _ _. destruct (ct_target t) as [p|].
      + specialize (HP p eq_refl).
        assert (D : forall e, lexing e -> gd true (fun x : rtest * gst => testok (fst x) /\ (Some t <> None -> fst x <> RElse) /\ sok (snd x))
          (let* e' := of_res (visit_expr_root inp (s_locals s) e) in let* (p', m) := of_res (visit_target (s_locals s) true p) in GOk (RIfLet p' e', set_locals m s))).
        { intros e Fe. eapply (gd_bind true xok); [apply gd_of; intros r E; eapply root_reads; [apply Hs|exact Fe|exact E]|].
          intros e' He. eapply gd_bind; [apply gd_target; [exact Hs|exact HP]|]. intros [p' m] [Hp Hm]. split; [split; assumption|]. split; [discriminate|apply sok_locals; assumption]. }
        destruct (ct_expr t) eqn:EE; try (apply D; exact HL). destruct (str_eqb op (lit "||") || str_eqb op (lit "&&")); [|apply D; exact HL].
        pose proof (lexing_here _ HL) as OP. pose proof (lexing_kids _ HL) as FK. inversion FK as [|? ? K1 K]; subst. inversion K as [|? ? K2 _]; subst.
        eapply (gd_bind true xok); [apply gd_of; intros r E; eapply root_reads; [apply Hs|exact K1|exact E]|]. intros l' Hl.
        eapply gd_bind; [apply gd_target; [exact Hs|exact HP]|]. intros [p' m] [Hp Hm]. cbn [fst snd] in Hp, Hm.
        eapply (gd_bind true xok); [apply gd_of; intros r E; eapply root_reads; [exact Hm|exact K2|exact E]|]. intros r' Hr.
        split; [|split; [discriminate|apply sok_locals; assumption]]. split; [exact Hp|]. split; [exact OP|]. split; assumption.
      + eapply (gd_bind true xok); [apply gd_of; intros r E; eapply root_reads; [apply Hs|exact HL|exact E]|]. intros e' He. split; [exact He|]. split; [discriminate|exact Hs].
    - eapply gd_bind; [apply gd_dedent_ok, H|]. intros s Hs. eapply gd_bind; [apply gd_any|]. intros _ _. split; [exact I|]. split; [congruence|exact Hs].
  Qed.

  (** Macro arguments *)
  Lemma named_args_ok ps : forall l acc r, Forall lexing l -> (forall k e, In (k, e) acc -> lexing e) -> named_arguments ps l acc = Ok r -> forall k e, In (k, e) r -> lexing e.
  Proof.
    induction l as [|a l IH]; intros acc r HL HA E; cbn [named_arguments] in E; [injection E as <-; exact HA|].
    destruct a; try (injection E as <-; exact HA). destruct (mem_str name ps); [|discriminate E]. inversion HL; subst. eapply IH; [assumption| |exact E].
    intros k e' Hk. apply in_put in Hk as [Hk|[-> ->]]; [eapply HA; exact Hk|assumption].
  Qed.
  Lemma bind_args_ok named args : (forall k e, In (k, e) named -> lexing e) -> Forall lexing args -> forall ps i pos m m' names values, Forall wordy ps -> chain_all refok m ->
    bind_args inp named args ps i pos m = Ok (m', names, values) -> chain_all refok m' /\ Forall wordy names /\ Forall xok values.
  Proof.
    intros HN HA. induction ps as [|p ps IH]; intros i pos m m' names values HP Hm E; cbn [bind_args] in E; [injection E as <- <- <-; auto|]. inversion HP as [|? ? P1 P2]; subst.
    apply rbind_inv in E as ([e pos'] & E1 & E). cbv beta iota zeta in E.
    assert (He : lexing e).
    { destruct (get p named) as [e0|] eqn:G; [injection E1 as <- <-; eapply HN, get_in, G|]. destruct pos; [|discriminate E1]. destruct (nth_error args i) as [e0|] eqn:NE; [|discriminate E1].
      injection E1 as <- <-. rewrite Forall_forall in HA. eapply HA, nth_error_In, NE. }
    assert (BV : (let! r := visit_expr_root inp m e in let! m' := ch_insert m p m_default in
          let! (m'', names, values) := bind_args inp named args ps (S i) pos' m' in Ok (m'', p :: names, r :: values)) = Ok (m', names, values) -> chain_all refok m' /\ Forall wordy names /\ Forall xok values).
    { clear E. intros E. apply rbind_inv in E as (r & E2 & E). apply rbind_inv in E as (m1 & E3 & E). apply rbind_inv in E as ([[m2 ns] vs] & E4 & E). injection E as <- <- <-.
      assert (H1 : chain_all refok m1) by (eapply ch_insert_ok; [exact Hm| |exact E3]; split; [exact P1|discriminate]). destruct (IH _ _ _ _ _ _ P2 H1 E4) as (K1 & K2 & K3). split; [exact K1|].
      split; [constructor; assumption|]. constructor; [exact (root_reads _ _ _ Hm He E2)|exact K3]. }
    destruct e; try (apply BV; exact E).
    - destruct (str_eqb s (lit "self")); [apply BV; exact E|]. apply rbind_inv in E as (m1 & E3 & E). eapply IH; [exact P2| |exact E]. eapply ch_insert_ok; [exact Hm| |exact E3].
      split; [exact P1|]. intros r [= <-]. apply or_self_ok; [exact Hm|]. destruct (lexing_here _ He) as [I1 I2]. apply norm_wordy; assumption.
    - apply rbind_inv in E as ([r wr] & E2 & E). apply rbind_inv in E as (m1 & E3 & E). eapply IH; [exact P2| |exact E]. eapply ch_insert_ok; [exact Hm| |exact E3]. split; [exact P1|]. intros r' [= <-].
      pose proof (visit_lexes _ _ Hm HE _ He _ _ E2) as X. destruct (attr_not_keyword _ _ _ _ _ _ E2) as [NK NN].
      destruct (ch_resolve m (show r)) as [r'|] eqn:C; [|split; [exact X|intros x Q; destruct (NN x Q)]]. eapply resolve_ok; [exact Hm|exact C].
  Qed.

  (** Parts of nodes *)
  Lemma fresh_wordy : forall fuel m id, gd true wordy (fresh_filter_name fuel m id).
  Proof.
    induction fuel as [|f IH]; intros m id; cbn [fresh_filter_name]; (destruct (ch_get m (filter_block_name id)); [|apply block_wordy]); [reflexivity|apply IH].
  Qed.
  Lemma gok_loop b l h w1 v it c w2 w3 st : (forall st, sok st -> gok (b st)) -> (forall st, sok st -> gok (l st)) -> tgood v -> lexing it -> (forall e, c = Some e -> lexing e) ->
    sok st -> gok (write_loop inp b l h w1 v it c w2 w3 st).
  Proof.
    intros H1 H2 HT FI FC H. unfold write_loop, gok. assert (H0 : sok (push_locals (do_handle_ws inp w1 st))) by (apply sok_push_locals, sok_ws, H).
    eapply (gd_bind true xok); [apply gd_of; intros r E; eapply root_reads; [apply H0|exact FI|exact E]|]. intros r Hr.
    eapply gd_bind; [apply gok_write, H0|]. intros [[c0 z0] s0] [C0 S0]. cbn [fst snd] in C0, S0.
    eapply gd_bind; [apply gd_any|]. intros _ _. eapply gd_bind; [apply gd_any|]. intros _ _.
    eapply (gd_bind true (fun x : option (target * rexpr) * gst => (forall p e, fst x = Some (p, e) -> pok p /\ xok e) /\ sok (snd x))).
    { destruct c as [c|]; [|split; [discriminate|apply sok_open, S0]]. eapply gd_bind; [apply gd_target; [apply sok_push_locals, sok_open, S0|exact HT]|]. intros [p m] [Hp Hm]. cbn [fst snd] in Hp, Hm.
      eapply (gd_bind true xok); [apply gd_of; intros r' E; eapply root_reads; [exact Hm|apply FC; reflexivity|exact E]|]. intros c' Hc.
      eapply gd_bind; [apply gd_pop_ok; apply sok_locals; [exact Hm|apply sok_push_locals, sok_open, S0]|]. intros s Hs. split; [|exact Hs]. intros p' e' [= <- <-]. split; assumption. }
    intros [flt s1] [HF S1]. cbn [fst snd] in HF, S1. eapply gd_bind; [apply gd_any|]. intros _ _. eapply gd_bind; [apply gd_target; [apply sok_push_locals, S1|exact HT]|]. intros [p m] [Hp Hm]. cbn [fst snd] in Hp, Hm.
    eapply gd_bind; [apply gd_any|]. intros _ _.
    eapply gd_bind; [apply H1; apply sok_open, sok_locals; [exact Hm|apply sok_push_locals, S1]|]. intros [[c1 z1] s2] [C1 S2]. cbn [fst snd] in C1, S2.
    eapply gd_bind; [apply gok_write, sok_ws, S2|]. intros [[c1' z1'] s3] [C1' S3]. cbn [fst snd] in C1', S3.
    eapply gd_bind; [apply gd_pop_ok, S3|]. intros s4 S4. eapply gd_bind; [apply gd_close_ok, S4|]. intros s5 S5.
    eapply (gd_bind true (fun x : list stmt * list stmt * N * gst => cokx (fst (fst (fst x))) /\ cokx (snd (fst (fst x))) /\ sok (snd x))).
    { destruct h.
      - eapply gd_bind; [apply gd_any|]. intros _ _. eapply gd_bind; [apply H2; apply sok_push_locals, sok_open, S5|]. intros [[c2 z2] s6] [C2 S6]. cbn [fst snd] in C2, S6.
        eapply gd_bind; [apply gok_write, sok_ws, S6|]. intros [[c2' z2'] s7] [C2' S7]. cbn [fst snd] in C2', S7.
        eapply gd_bind; [apply gd_pop_ok, S7|]. intros s8 S8. eapply gd_bind; [apply gd_close_ok, S8|]. intros s9 S9. split; [apply cok_app; assumption|split; [apply cok_nil|exact S9]].
      - eapply gd_bind; [apply gok_write, sok_ws, S5|]. intros [[c2' z2'] s7] [C2' S7]. cbn [fst snd] in C2', S7. split; [apply cok_nil|split; [exact C2'|exact S7]]. }
    intros [[[ce ct] z2] s6] (CE & CT & S6). cbn [fst snd] in CE, CT, S6. eapply gd_bind; [apply gd_close_ok, S6|]. intros s7 S7. eapply gd_bind; [apply gd_pop_ok, S7|]. intros s8 S8.
    split; [|exact S8]. cbn [fst]. apply cok_app; [exact C0|].
    assert (CB : cokx (c1 ++ c1')) by (apply cok_app; assumption).
    apply cok_around; [|rewrite app_assoc; repeat apply cok_app; assumption]. apply e_loop; assumption.
  Qed.
  Lemma gok_filter b w1 f a w2 st : (forall st, sok st -> gok (b st)) -> (forall x, wordy x -> lexing (insert_in_filter x (Filter f a))) -> sok st -> gok (write_filter_block inp b w1 f a w2 st).
  Proof.
    intros H1 HF H. unfold write_filter_block, gok. eapply (gd_bind true wordy); [apply fresh_wordy|]. intros var PV. pose proof (sok_flush (ws_l w1) _ H) as H0.
    eapply gd_bind; [apply H1; apply sok_prepare; split; [apply H0|constructor]|]. intros [[c z] s] [C S1]. cbn [fst snd] in C, S1. pose proof (sok_flush (ws_l w2) _ S1) as S2.
    eapply (gd_bind true (fun x => parts_ok (snd (fst x)))); [apply gd_of; intros [[z' p] n] E; eapply prepare_ok; [apply S2|apply S2|exact E]|].
    intros [[wz ps] nm] HP. cbn [fst snd] in HP.
    assert (T : forall (x : gres unit) stm, eok stm -> gok
        (let* _ := x in let* _ := line (set_named nm (set_buf [] (do_flush_ws inp (ws_l w2) s))) in
         let s' := set_buf (s_buf (do_flush_ws inp (ws_l w1) st)) (set_named nm (set_buf [] (do_flush_ws inp (ws_l w2) s))) in
         let* (r, wrapped) := of_res (visit_expr inp (s_locals s') (insert_in_filter var (Filter f a))) in
         let s'' := do_prepare_ws inp (ws_r w2) (push [WGen r wrapped] s') in
         let* m := of_res (ch_insert (s_locals s'') var m_initialized) in
         GOk (c ++ emit s'' [stm], z + wz, set_locals m s''))).
    { intros x stm HS. unfold gok. eapply gd_bind; [apply gd_any|]. intros _ _. eapply gd_bind; [apply gd_any|]. intros _ _. cbv zeta.
      assert (S3 : sok (set_buf (s_buf (do_flush_ws inp (ws_l w1) st)) (set_named nm (set_buf [] (do_flush_ws inp (ws_l w2) s))))) by (split; [apply S2|apply H0]).
      eapply (gd_bind true (fun x => xok (fst x))); [apply gd_of; intros [r wr] E; eapply visit_lexes; [apply S2|exact HE|apply HF, PV|exact E]|]. intros [r wr] Hr. cbn [fst] in Hr.
      assert (S4 : sok (do_prepare_ws inp (ws_r w2) (push [WGen r wr] (set_buf (s_buf (do_flush_ws inp (ws_l w1) st)) (set_named nm (set_buf [] (do_flush_ws inp (ws_l w2) s))))))).
      { apply sok_prepare, sok_push; [constructor; [exact Hr|constructor]|exact S3]. }
      eapply (gd_bind true (chain_all refok)); [apply gd_of; intros m E; eapply ch_insert_ok; [apply S4| |exact E]; split; [exact PV|discriminate]|]. intros m Hm.
      split; [|apply sok_locals; [exact Hm|exact S4]]. cbn [fst]. apply cok_app; [exact C|]. apply cok_emit, HS. }
    destruct ps as [|x|x y].
    - split; [exact C|]. split; [apply S2|constructor].
    - apply (T (GOk tt) (SLetStr var x)). apply e_letstr, wordy_piece, PV.
    - apply (T (if 62 <=? o_indent (set_named nm (set_buf [] (do_flush_ws inp (ws_l w2) s))) then GPanic else GOk tt) (SLetFmt var x y)). apply e_letfmt; [apply wordy_piece, PV|exact HP].
  Qed.
  Section Lists.
    Variable f : node -> gst -> gres gen.
    Lemma gok_list : forall ns, (forall n, In n ns -> forall st, sok st -> gok (f n st)) -> forall st, sok st -> gok (gen_list f ns st).
    Proof.
      induction ns as [|n ns IH]; intros H st E; cbn [gen_list]; [split; [apply cok_nil|exact E]|].
      eapply gd_bind; [apply H; [left; reflexivity|exact E]|]. intros [[c z] s] [C1 S1]. cbn [fst snd] in C1, S1. eapply gd_bind; [apply IH; [intros; apply H; [right|]; assumption|exact S1]|].
      intros [[c' z'] s'] [C2 S2]. split; [apply cok_app; assumption|exact S2].
    Qed.
    Lemma gok_branches w : forall cs, (forall w' t ns, In (Cond w' t ns) cs -> test_ok t /\ forall st, sok st -> gok (gen_list f ns st)) ->
      forall first st, sok st -> gd true (fun x => cokx (fst (fst (fst (fst (fst x))))) /\ Forall branch_ok (snd (fst (fst (fst (fst x))))) /\ match cs with Cond _ (Some _) _ :: _ => first_test (snd (fst (fst (fst (fst x))))) | _ => True end /\ sok (snd x)) (gen_branches inp f w first cs st).
    Proof.
      induction cs as [|[w' t ns] cs IH]; intros H first st E; cbn [gen_branches].
      - eapply gd_bind; [apply gok_write, sok_ws, E|]. intros [[c z] s] [C1 S1]. cbn [fst snd] in C1, S1. eapply gd_bind; [apply gd_close_ok, S1|]. intros s2 S2.
        eapply gd_bind; [apply gd_pop_ok, S2|]. intros s3 S3. split; [exact C1|]. split; [constructor|]. split; [exact I|exact S3].
      - destruct (H w' t ns (or_introl eq_refl)) as [HT HB]. eapply gd_bind; [apply gok_write, sok_ws, E|]. intros [[c z] s] [C1 S1]. cbn [fst snd] in C1, S1.
        eapply (gd_bind true sok); [destruct first; [exact S1|apply gd_pop_ok, S1]|]. intros s2 S2.
        eapply gd_bind; [apply gd_test_ok; [exact HT|apply sok_push_locals, S2]|]. intros [t' s3] (C3 & N3 & S3). cbn [fst snd] in C3, N3, S3.
        eapply gd_bind; [apply HB, sok_open, S3|]. intros [[b z'] s4] [C4 S4]. cbn [fst snd] in C4, S4. eapply gd_bind; [apply IH; [intros; eapply H; right; eassumption|exact S4]|].
        intros [[[[[a r] z2] sz] he] s5] (C5 & B5 & _ & S5). cbn [fst snd] in *. split; [exact C1|]. split; [|split; [|exact S5]]; [|destruct t; [apply N3; discriminate|exact I]]. constructor; [|exact B5]. split; [exact C3|apply cok_app; assumption].
    Qed.
    Lemma gok_arms w : forall cs, (forall w' t ns, In (When w' t ns) cs -> tgood t /\ forall st, sok st -> gok (gen_list f ns st)) ->
      forall first st, sok st -> gd true (fun x => cokx (fst (fst (fst (fst x)))) /\ Forall (fun a => pok (fst a) /\ cokx (snd a)) (snd (fst (fst x))) /\ sok (snd x)) (gen_arms inp f w first cs st).
    Proof.
      induction cs as [|[w' t ns] cs IH]; intros H first st E; cbn [gen_arms].
      - eapply gd_bind; [apply gok_write, sok_ws, E|]. intros [[c z] s] [C1 S1]. cbn [fst snd] in C1, S1. eapply gd_bind; [apply gd_close_ok, S1|]. intros s2 S2.
        eapply gd_bind; [apply gd_pop_ok, S2|]. intros s3 S3. split; [exact C1|]. split; [constructor|exact S3].
      - eapply (gd_bind true (fun x : gen => cokx (fst (fst x)) /\ sok (snd x))).
        { destruct first; [split; [apply cok_nil|apply sok_ws, E]|]. eapply gd_bind; [apply gok_write, sok_ws, E|]. intros [[c z] s] [C1 S1]. cbn [fst snd] in C1, S1.
          eapply gd_bind; [apply gd_close_ok, S1|]. intros s2 S2. eapply gd_bind; [apply gd_pop_ok, S2|]. intros s3 S3. split; assumption. }
        intros [[c z] s] [C1 S1]. cbn [fst snd] in C1, S1. eapply gd_bind; [apply gd_any|]. intros _ _. destruct (H w' t ns (or_introl eq_refl)) as [HT HB]. eapply gd_bind; [apply gd_target; [apply sok_push_locals, S1|exact HT]|]. intros [p m] [Hp Hm]. cbn [fst snd] in Hp, Hm.
        eapply gd_bind; [apply HB, sok_open, sok_locals; [exact Hm|apply sok_push_locals, S1]|]. intros [[b z'] s4] [C4 S4]. cbn [fst snd] in C4, S4.
        eapply gd_bind; [apply IH; [intros; eapply H; right; eassumption|exact S4]|].
        intros [[[[a z2] r] sz] s5] (C5 & B5 & S5). cbn [fst snd] in *. split; [exact C1|]. split; [|exact S5]. constructor; [split; [exact Hp|apply cok_app; assumption]|exact B5].
    Qed.
  End Lists.

  (** Nodes *)
  Hypothesis HG : forall p c, get p contexts = Some c -> cgood c.
  Section Step.
    Variable expand : option heritage -> context -> list node -> level -> gst -> gres gen.
    Hypothesis HX : forall her ctx ns lv st, (forall h, her = Some h -> hgood h) -> cgood ctx -> Forall good ns -> sok st -> gok (expand her ctx ns lv st).
    Variables (her : option heritage) (ctx : context).
    Hypothesis HH : forall h, her = Some h -> hgood h.
    Hypothesis HC : cgood ctx.
    Lemma gok_block name outer st : sok st -> gok (write_block inp expand her ctx name outer st).
    Proof.
      intros H. unfold write_block, gok. eapply gd_bind; [apply gd_any|]. intros cur _. eapply gd_bind; [apply gok_write, sok_flush, H|]. intros [[c z] s] [C1 S1]. cbn [fst snd] in C1, S1.
      cbv zeta. destruct her as [h|]; [|exact I]. destruct (get (fst cur) (h_blocks h)) as [defs|] eqn:G; [|exact I]. destruct (nth_error defs (snd cur)) as [[cc d]|] eqn:NE; [|exact I].
      destruct (HH h eq_refl) as [_ HD]. destruct (HD _ _ _ _ (get_in _ _ _ G) (nth_error_In _ _ NE)) as [K1 K2].
      eapply gd_bind; [apply HX; [exact HH|apply merge_cgood; [exact HC|exact K1]|exact K2|split; [apply ch_empty_ok|apply S1]]|]. intros [[c1 z1] s1] [C2 S2]. cbn [fst snd] in C2, S2.
      eapply (gd_bind true (fun x : gen => cokx (fst (fst x)) /\ sok (snd x))); [destruct (ch_is_current_empty (s_locals s1)); [split; [apply cok_nil|exact S2]|apply gok_write, S2]|].
      intros [[c2 z2] s2] [C3 S3]. cbn [fst snd] in C3, S3. split; [cbn [fst]; repeat apply cok_app; assumption|]. cbn [snd]. apply sok_prepare. pose proof (sok_flush (ws_l (b_ws2 d)) _ S3) as [_ S4].
      split; [apply S1|exact S4].
    Qed.
    Lemma gok_call w scope name args st : Forall lexing args -> sok st -> gok (write_call inp contexts expand her ctx w scope name args st).
    Proof.
      intros HA H. unfold write_call. destruct (str_eqb name (lit "super")); [apply gok_block, H|]. unfold gok.
      eapply (gd_bind true (fun x : macro_def * context => (Forall wordy (k_args (fst x)) /\ Forall good (k_nodes (fst x))) /\ cgood (snd x))).
      { destruct scope as [s|].
        - destruct (get s (c_imports ctx)) as [path|]; [|exact I]. destruct (get path contexts) as [mc|] eqn:G; [|exact I]. destruct (get name (c_macros mc)) eqn:GM; [|exact I].
          pose proof (HG _ _ G) as K. split; [eapply (gc_macros _ K), get_in, GM|exact K].
        - destruct (get name (c_macros ctx)) eqn:GM; [|exact I]. split; [eapply (gc_macros _ HC), get_in, GM|exact HC]. }
      intros [def own_ctx] [[K0 K1] K2]. cbn [fst snd] in K0, K1, K2.
      eapply gd_bind; [apply gok_write, sok_push_locals, sok_flush, H|]. intros [[c z] s] [C1 S1]. cbn [fst snd] in C1, S1. eapply gd_bind; [apply gd_any|]. intros _ _.
      destruct (negb (Nat.eqb (length args) (length (k_args def)))); [exact I|].
      eapply (gd_bind true (fun l => forall k e, In (k, e) l -> lexing e)); [apply gd_of; intros l E; eapply named_args_ok; [apply Forall_rev, HA| |exact E]; intros k e []|]. intros nm Hnm.
      eapply (gd_bind true (fun x : chain * list str * list rexpr => chain_all refok (fst (fst x)) /\ Forall wordy (snd (fst x)) /\ Forall xok (snd x))).
      { apply gd_of. intros [[m ns] vs] E. eapply bind_args_ok; [exact Hnm|exact HA|exact K0| |exact E]. apply sok_prepare, sok_open, S1. }
      intros [[m ns] vs] (HM & HN & HV). cbn [fst snd] in HM, HN, HV. eapply gd_bind; [apply gd_any|]. intros _ _.
      eapply gd_bind; [apply HX; [exact HH|exact K2|exact K1|apply sok_locals; [exact HM|apply sok_prepare, sok_open, S1]]|]. intros [[c1 z1] s1] [C2 S2]. cbn [fst snd] in C2, S2.
      eapply gd_bind; [apply gok_write, sok_flush, S2|]. intros [[c2 z2] s2] [C3 S3]. cbn [fst snd] in C3, S3.
      eapply gd_bind; [apply gd_close_ok, S3|]. intros s3 S4. eapply gd_bind; [apply gd_pop_ok, S4|]. intros s4 S5.
      split; [|apply sok_prepare, S5]. cbn [fst]. apply cok_app; [exact C1|]. apply cok_around; [apply e_block|]; [|apply cok_app; assumption].
      apply cok_app; [|apply cok_app; assumption]. destruct ns; [apply cok_nil|]. apply cok_emit, e_tuple; assumption.
    Qed.
    Lemma gok_include w path st : sok st -> gok (write_include inp contexts find expand ctx w path st).
    Proof.
      intros H. unfold write_include, gok. eapply gd_bind; [apply gok_write, sok_flush, H|]. intros [[c z] s] [C1 S1]. cbn [fst snd] in C1, S1.
      eapply gd_bind; [apply gd_any|]. intros q _. eapply gd_bind; [apply gd_any|]. intros _ _. destruct (get q contexts) as [cc|] eqn:G; [|exact I]. cbv zeta.
      pose proof (merge_cgood _ _ HC (HG _ _ G)) as GM.
      eapply (gd_bind true (fun h => forall h', h = Some h' -> hgood h')).
      { assert (T : gd true (fun h => forall h', h = Some h' -> hgood h') (let* h := heritage_new (S (length contexts)) contexts (merge_context ctx cc) in GOk (Some h))).
        { eapply (gd_bind true hgood); [|intros h Hh h' [= <-]; exact Hh]. destruct (heritage_new (S (length contexts)) contexts (merge_context ctx cc)) eqn:E; cbn; auto. eapply heritage_new_cgood; eassumption. }
        destruct (c_blocks (merge_context ctx cc)), (c_extends (merge_context ctx cc)); try exact T. discriminate. }
      intros h Hh.
      assert (K : cgood match h with Some h0 => h_root h0 | None => merge_context ctx cc end) by (destruct h as [h|]; [apply (Hh h eq_refl)|exact GM]).
      eapply gd_bind; [apply HX; [exact Hh|exact K|apply K|split; [apply ch_parent_ok, S1|constructor]]|]. intros [[c1 z1] s1] [C2 S2]. cbn [fst snd] in C2, S2.
      eapply gd_bind; [apply gok_write, S2|]. intros [[c2 z2] s2] [C3 S3]. cbn [fst snd] in C3, S3. split; [|apply sok_prepare, S1]. cbn [fst]. apply cok_app; [exact C1|]. apply cok_app; [|apply cok_app; assumption].
      apply cok_emit, e_include.
    Qed.
    Lemma gok_node : forall n lv st, good n -> sok st -> gok (handle_node inp contexts find expand her ctx lv n st).
    Proof.
      induction n using node_ind_all; intros lv st GN S0; pose proof (good_own _ GN) as ON; cbn [handle_node].
      - destruct n; try contradiction; cbn [handle_node].
        + eapply gd_bind; [apply gd_lit_ok, S0|]. intros s Hs. split; [apply cok_nil|exact Hs].
        + split; [apply cok_nil|apply sok_ws, S0].
        + split; [apply cok_nil|]. apply sok_push; [constructor; [exact ON|constructor]|apply sok_ws, S0].
        + apply gok_call; [exact ON|exact S0].
        + apply gok_let; [apply ON|apply ON|exact S0].
        + destruct (top_level lv); [split; [apply cok_nil|exact S0]|exact I].
        + apply gok_include, S0.
        + destruct (top_level lv); [split; [apply cok_nil|apply sok_ws, S0]|exact I].
        + eapply gd_bind; [apply gd_lit_ok, sok_ws, S0|]. intros s Hs. split; [apply cok_nil|apply sok_ws, Hs].
        + eapply gd_bind; [apply gok_write, sok_ws, S0|]. intros [[c z] s] [C1 S1]. eapply gd_bind; [apply gd_any|]. intros _ _. split; [apply cok_app; [exact C1|apply cok_emit, e_break]|exact S1].
        + eapply gd_bind; [apply gok_write, sok_ws, S0|]. intros [[c z] s] [C1 S1]. eapply gd_bind; [apply gd_any|]. intros _ _. split; [apply cok_app; [exact C1|apply cok_emit, e_continue]|exact S1].
      - eapply gd_bind.
        + apply gok_branches; [|exact S0]. intros w' t ns Hc. split; [intros t' ->; eapply (proj2 ON); exact Hc|]. intros s Hs. rewrite Forall_forall in H. specialize (H _ Hc). cbn in H. rewrite Forall_forall in H.
          apply gok_list; [|exact Hs]. intros n Hn s' Hs'. apply H; [exact Hn| |exact Hs']. eapply good_child; [exact GN|]. exact (ch_if false _ _ _ _ _ _ Hc Hn).
        + intros [[[[[c br] z] sz] he] s] (C1 & B1 & T1 & S1). cbn [fst snd] in C1, B1, T1, S1. destruct ON as [(w0 & t0 & ns0 & rest & ->) _]. eapply gd_bind; [apply gd_any|]. intros z' _. split; [|exact S1]. cbn [fst]. apply cok_app; [exact C1|].
          apply cok_around; [apply e_if; [exact B1|exact T1]|]. apply cok_concat. eapply Forall_impl; [|exact B1]. intros a [_ K]. exact K.
      - eapply gd_bind; [apply gok_write, sok_flush, S0|]. intros [[c z] s] [C1 S1]. cbn [fst snd] in C1, S1.
        destruct ON as [O1 O2]. eapply (gd_bind true xok); [apply gd_of; intros r E; eapply root_reads; [apply S1|exact O1|exact E]|]. intros r Hr. eapply gd_bind; [apply gd_any|]. intros _ _.
        eapply gd_bind.
        + apply gok_arms; [|apply sok_open, S1]. intros w' t ns Hc. split; [eapply O2; exact Hc|]. intros s0 Hs0. rewrite Forall_forall in H. specialize (H _ Hc). cbn in H. rewrite Forall_forall in H.
          apply gok_list; [|exact Hs0]. intros n Hn s' Hs'. apply H; [exact Hn| |exact Hs']. eapply good_child; [exact GN|]. exact (ch_match false _ _ _ _ _ _ _ _ Hc Hn).
        + intros [[[[c1 z1] ar] sz] s2] (C2 & B2 & S2). cbn [fst snd] in C2, B2, S2. eapply gd_bind; [apply gd_close_ok, S2|]. intros s3 S3. eapply gd_bind; [apply gd_any|]. intros z' _.
          split; [|exact S3]. cbn [fst]. apply cok_app; [exact C1|]. apply cok_around; [apply e_match; [exact Hr|exact B2]|]. apply cok_concat. eapply Forall_impl; [|exact B2]. intros a [_ K]. exact K.
      - destruct ON as (O0 & O1 & O2). rewrite Forall_forall in *. apply gok_loop; [| |exact O0|exact O1|exact O2|exact S0]; intros s Hs; (apply gok_list; [|exact Hs]); intros n Hn s' Hs'.
        + apply H; [exact Hn| |exact Hs']. eapply good_child; [exact GN|]. exact (ch_body false _ _ _ _ _ _ _ _ _ Hn).
        + apply H0; [exact Hn| |exact Hs']. eapply good_child; [exact GN|]. exact (ch_else false _ _ _ _ _ _ _ _ _ Hn).
      - apply gok_block, S0.
      - destruct (top_level lv); [split; [apply cok_nil|apply sok_prepare, sok_flush, S0]|exact I].
      - rewrite Forall_forall in *. apply gok_filter; [|exact ON|exact S0]. intros s Hs. apply gok_list; [|exact Hs]. intros n Hn s' Hs'. apply H; [exact Hn| |exact Hs'].
        eapply good_child; [exact GN|]. exact (ch_filter false _ _ _ _ _ _ Hn).
    Qed.
    Lemma gok_nodes ns lv st : Forall good ns -> sok st -> gok (handle_nodes inp contexts find expand her ctx ns lv st).
    Proof.
      intros HN H. unfold handle_nodes, gok. rewrite Forall_forall in HN. eapply gd_bind; [apply gok_list; [intros n Hn s Hs; apply gok_node; [apply HN, Hn|exact Hs]|exact H]|].
      intros [[c z] s] [C1 S1]. cbn [fst snd] in C1, S1. destruct (top_level lv); [|split; assumption].
      eapply gd_bind; [apply gok_write; destruct (next_ws (s_ws s)); [apply sok_flush|]; exact S1|]. intros [[c' z'] s'] [C2 S2]. split; [apply cok_app; assumption|exact S2].
    Qed.
  End Step.
  Lemma gok_handle : forall fuel her ctx ns lv st, (forall h, her = Some h -> hgood h) -> cgood ctx -> Forall good ns -> sok st -> gok (handle inp contexts find fuel her ctx ns lv st).
  Proof.
    induction fuel as [|f IH]; intros her ctx ns lv st HH HC HN HS; [reflexivity|]. cbn [handle]. apply gok_nodes; assumption.
  Qed.
  End Gen.

Lemma build_lexes inp find fuel templates code z : readable_escapers xs xc inp -> (forall p ns, In (p, ns) templates -> Forall good ns) ->
  build_template inp find fuel templates = GOk (code, z) -> cokx code.
Proof.
  intros HE HT E. unfold build_template in E. apply gbind_inv in E as (contexts & E1 & E). pose proof (contexts_cgood _ _ _ HT E1) as HG.
  destruct (get (f_path inp) contexts) as [ctx|] eqn:G; [|discriminate E]. pose proof (HG _ _ G) as HC. apply gbind_inv in E as (her & E2 & E).
  assert (HH : forall h, her = Some h -> hgood h).
  { assert (T : (let* h := heritage_new fuel contexts ctx in match f_block inp with Some b => match get b (h_blocks h) with None => GErr (lit "cannot find block") | Some _ => GOk (Some h) end | None => GOk (Some h) end) = GOk her -> forall h, her = Some h -> hgood h).
    { intros Q h ->. apply gbind_inv in Q as (h' & Q1 & Q). assert (h' = h) by (destruct (f_block inp) as [b|]; [destruct (get b (h_blocks h'))|]; congruence). subst h'. eapply heritage_new_cgood; eassumption. }
    destruct (c_blocks ctx), (c_extends ctx); try exact (T E2). injection E2 as <-. discriminate. }
  unfold impl_template in E. cbv zeta in E. apply gbind_inv in E as ([[c z'] s] & E3 & E). cbv beta iota in E.
  assert (K : cgood match her with Some h => h_root h | None => ctx end) by (destruct her as [h|]; [apply (HH h eq_refl)|exact HC]).
  assert (S0 : sok (initial inp 2)) by (split; [apply ch_empty_ok|constructor]).
  pose proof (gok_handle inp contexts find HE HG fuel her _ _ LTop _ HH K (gc_nodes _ K) S0) as R. rewrite E3 in R. destruct R as [R _]. cbn [fst] in R.
  apply gbind_inv in E as (u & _ & E). apply gbind_inv in E as (s1 & _ & E). apply gbind_inv in E as (u2 & _ & E). apply gbind_inv in E as (s2 & _ & E). injection E as <- <-. exact R.
Qed.

(** ** Parsed templates *)
Notation readable := (RustSpec.readable xs xc).
Lemma op_listed op p : In (op, p) precedence -> In op binary_ops.
Proof. intros H. cbn in H. repeat (destruct H as [H|H]; [injection H as <- <-; cbn; tauto|]). contradiction. Qed.
Lemma here_lexes e : wf_expr e -> readable e -> lexes_here e.
Proof.
  intros W R. destruct W; cbn [RustSpec.readable lexes_here] in *; auto.
  - apply names_wpath; assumption.
  - destruct H0 as [H0|H0]; [split; [apply norm_piece; assumption|left; apply norm_wordy; assumption]|]. rewrite (normalize_other _ (signed_not_keyword _ H0)). split; [apply num_piece, signed_chars, H0|].
    right. destruct H0 as [H0|(t & -> & H0)]; [left; apply number_digit, H0|right; reflexivity].
  - split; [apply name_wordy; assumption|discriminate].
  - eapply op_listed; eassumption.
  - split; [apply names_wpath; [assumption|apply R]|apply closed_piece, R].
Qed.
Lemma lexes_wf e : wf_expr e -> (forall e', sub e' e -> readable e') -> lexing e.
Proof. intros W P e' S. apply here_lexes; [eapply sub_wf; eassumption|apply P, S]. Qed.
Lemma lexes_list l : Forall wf_expr l -> (forall e e', In e l -> sub e' e -> readable e') -> Forall lexing l.
Proof. intros W P. rewrite Forall_forall in *. intros e He. apply lexes_wf; [apply W, He|]. intros e' S. eapply P; eassumption. Qed.
Lemma lexes_insert x e : wordy x -> forall n l, e = Filter n l -> rust_chars xs xc n -> (wf_expr e \/ wf_block_filter n l) -> (forall a e', In a l -> sub e' a -> readable e') -> lexing (insert_in_filter x e).
Proof.
  intros PX. assert (GX : lexing (Generated x)) by (apply lexing_intro; [exact PX|constructor]).
  induction e using expr_ind'; intros n0 l0 EQ RN W P; try discriminate EQ. injection EQ as <- <-. cbn [insert_in_filter].
  assert (PN : wordy n) by (apply name_wordy; [destruct W as [W|W]; inversion W; subst; assumption|exact RN]). destruct l as [|a l].
  - apply lexing_intro; [split; [exact PN|discriminate]|constructor; [exact GX|constructor]].
  - assert (WL : Forall wf_expr l /\ (wf_expr a \/ exists m l', a = Filter m l' /\ wf_block_filter m l')).
    { destruct W as [W|W]; [inversion W; subst; auto|]. inversion W; subst; [match goal with K : Forall wf_expr (a :: l) |- _ => inversion K; subst end; auto|]. split; [assumption|right; eauto]. }
    destruct WL as [WL WA]. assert (FL : Forall lexing l) by (apply lexes_list; [exact WL|]; intros; eapply P; [right; eassumption|assumption]).
    assert (OTHER : wf_expr a -> lexing (Filter n (Generated x :: a :: l))).
    { intros Wa. apply lexing_intro; [split; [exact PN|discriminate]|]. constructor; [exact GX|]. constructor; [|exact FL]. apply lexes_wf; [exact Wa|]. intros e' S. eapply P; [left; reflexivity|exact S]. }
    destruct a as [| | | | | | | | |m l2| | | | | | | | | |]; try (apply OTHER; destruct WA as [WA|(m' & l' & Q & _)]; [exact WA|discriminate Q]).
    apply lexing_intro.
    + split; [exact PN|discriminate].
    + constructor; [|exact FL]. inversion H; subst. apply (H2 m l2 eq_refl).
      * assert (Q : readable (Filter m l2)) by (eapply P; [left; reflexivity|constructor]). exact Q.
      * destruct WA as [WA|(m' & l' & Q & WB)]; [left; exact WA|right; injection Q as <- <-; exact WB].
      * intros a e' Ha S. eapply P; [left; reflexivity|]. econstructor; [|exact S]. exact Ha.
Qed.
Lemma target_wordy t : wf_target t -> readable_target xs xc t -> Forall wordy (target_names t).
Proof.
  induction t as [x|p l IH|p l IH|s|s|s|s|p|l IH] using target_ind'; intros W R; inversion W as [y W1 W2|q k W1 W2|q k W1 W2|q W1|q W1|q W1|q W1|q W1|k W1 W2]; subst;
    inversion R as [y R1|q k R1 R2|q k R1 R2|k R1|q R1|q|q|q R1|q R1]; subst; cbn [target_names]; try constructor.
  - destruct (str_eqb x (lit "_")); constructor; [apply norm_wordy; assumption|constructor].
  - clear W R W1 R1. induction IH as [|t l Ht _ IH]; [constructor|]. inversion W2; subst. inversion R2; subst. cbn [map concat]. apply Forall_app. auto.
  - clear W R W1 R1. induction IH as [|[k t] l Ht _ IH]; [constructor|]. inversion W2 as [|? ? [W3 W4] W5]; subst. inversion R2 as [|? ? [R3 R4] R5]; subst. cbn [map concat fst snd] in *. apply Forall_app. auto.
  - clear W R W1. induction IH as [|t l Ht _ IH]; [constructor|]. inversion W2; subst. inversion R1; subst. cbn [map concat]. apply Forall_app. auto.
Qed.
Lemma own_wf b n : wf_node b n -> (forall e e', expr_of n e -> sub e' e -> readable e') -> (forall t, In t (targets_of n) -> readable_target xs xc t) ->
  (forall x, In x (words_of n) -> rust_chars xs xc x) -> own n.
Proof.
  intros W P PT PW. assert (D : forall e, expr_of n e -> wf_expr e -> lexing e) by (intros e O We; apply lexes_wf; [exact We|]; intros e' S; eapply P; eassumption).
  assert (DT : forall t, In t (targets_of n) -> wf_target t -> tgood t) by (intros t It Wt; split; [exact (target_piece xs xc t Wt (PT t It))|exact (target_wordy t Wt (PT t It))]).
  destruct W; cbn [own]; auto.
  - apply D; [constructor|assumption].
  - destruct H1 as (pos & named & -> & Hp & Hn & _). apply Forall_app. split.
    + rewrite Forall_forall in *. intros a Ha. apply D; [|apply Hp, Ha]. constructor; [apply in_app_iff; left; exact Ha|]. intros k v ->. apply Hp in Ha. inversion Ha.
    + rewrite Forall_forall in *. intros a Ha. assert (Ha' := Ha). apply in_map_iff in Ha as ([k v] & <- & Hk). apply lexing_intro; [exact I|]. constructor; [|constructor]. cbn [fst snd] in *.
      apply D; [|apply (Hn _ Hk)]. apply (eo_named _ _ _ _ k). apply in_app_iff. right. exact Ha'.
  - split; [apply DT; [left; reflexivity|assumption]|]. intros e ->. apply D; [constructor|apply H0; reflexivity].
  - destruct H as (w0 & t0 & ns0 & ->). split; [eauto|]. intros w' t ns Hc. rewrite Forall_forall in H0. pose proof (H0 _ Hc) as WC. inversion WC as [? ? ? ? WT _]; subst. destruct (WT t eq_refl) as [WT1 We].
    split; [apply D; [econstructor; exact Hc|exact We]|]. intros p Hp. apply DT; [|apply WT1, Hp]. cbn [targets_of]. apply in_concat. exists [p]. split; [|left; reflexivity].
    apply in_map_iff. exists (Cond w' (Some t) ns). rewrite Hp. split; [reflexivity|exact Hc].
  - split; [apply D; [constructor|assumption]|]. intros w t ns Hc. rewrite Forall_forall in H0. pose proof (H0 _ Hc) as WC. inversion WC as [? ? ? ? WT _]; subst.
    apply DT; [|exact WT]. cbn [targets_of]. apply in_map_iff. exists (When w t ns). split; [reflexivity|exact Hc].
  - split; [apply DT; [left; reflexivity|assumption]|]. split; [apply D; [constructor|assumption]|]. intros e ->. apply D; [constructor|auto].
  - rewrite Forall_forall in *. intros x Hx. apply name_wordy; [auto|apply PW, Hx].
  - intros x PX. eapply lexes_insert; [exact PX|reflexivity|apply PW; left; reflexivity|right; exact H|]. intros a e' Ha S. eapply P; [constructor; exact Ha|exact S].
Qed.
Lemma good_wf ns : Forall (wf_node false) ns -> readable_template xs xc ns -> Forall good ns.
Proof.
  intros W P. rewrite Forall_forall. intros n Hn b b' m I. destruct (inside_any _ _ _ _ I false) as [b1 I']. assert (O : occurs ns b1 m) by (exists n; auto).
  destruct (P _ _ O) as (P1 & P2 & P3). eapply own_wf; [eapply occurs_wf; [exact W|exact O]|exact P1|exact P2|exact P3].
Qed.
End Rust.
