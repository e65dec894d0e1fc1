(** * The expressions in generated statements are made of Rust tokens: what RustShow.v says of the text, and what TokenExpr.v needs
    of the tokens. *)
From Verif Require Import Base Ws Ast LitSpec RustText ParseSpec TreeSpec Ident IdentFacts GenExpr Heritage Gen GenText RustSpec LexFacts RustFacts SimFacts Sem ReadSpec ReadFacts GroupSpec
  RustShow TokenFacts TokenRead TokenExpr.
From Coq Require Import Lia ZArith ZifyBool ZifyNat ZifyN.
Local Open Scope N_scope.
Set Default Proof Using "Type".

Section Show.
  Variables xs xc plain : N -> bool.
  Notation piece := (RustFacts.piece xs xc).
  Notation epiece := (RustFacts.epiece xs xc).
  Notation wordy := (TokenFacts.wordy xs xc).
  Notation wpath := (TokenRead.wpath xs xc).
  Notation tlex := (TokenExpr.tlex xs xc).

  (** ** Names *)
  Lemma wordy_piece x : wordy x -> piece x.
  Proof.
    intros [(c & t & -> & S & T)|(y & -> & (c & t & -> & S & T) & M)] st.
    - exists (MWord (c :: t)). split; [|reflexivity]. cbn [RustText.run RustText.step fst snd]. rewrite start_fresh by exact S. exact (word_run xs xc t [c] st T).
    - exists (MRaw (c :: t)). split; [|cbn [ready]; rewrite M; reflexivity].
      rewrite run_app. change (RustText.run xs xc (MTop, st) (lit "r#")) with (Some (MHash, st)). cbn [RustText.run RustText.step fst snd]. rewrite S. exact (raw_run xs xc t [c] st T).
  Qed.
  Lemma wpath_pieces p : wpath p -> Forall piece p.
  Proof.
    intros (l & W & _ & P). assert (F : Forall piece l) by (eapply Forall_impl; [|exact W]; exact wordy_piece).
    destruct P as [->| ->]; [exact F|]. constructor; [exact (fun st => goes_nil xs xc st)|exact F].
  Qed.
  Lemma name_wordy x : ident x -> rust_chars xs xc x -> wordy x.
  Proof. intros I R. left. destruct (ident_chars xs xc x I R) as (c & t & H). exists c, t. exact H. Qed.
  Lemma norm_wordy x : ident x -> rust_word xs xc x -> wordy (normalize_identifier x).
  Proof.
    intros I [R C]. destruct (in_rust_keywords_dec x) as [K|K].
    - rewrite (normalize_keyword _ K). right. exists x. split; [reflexivity|]. split; [destruct (ident_chars xs xc x I R) as (c & t & H); exists c, t; exact H|].
      pose proof keyword_raw as F. rewrite forallb_forall in F. specialize (F x K).
      destruct (str_eqb x (lit "crate")) eqn:E; [apply str_eqb_eq in E; contradiction|]. destruct (mem_str x not_raw); [discriminate F|reflexivity].
    - rewrite (normalize_other _ K). apply name_wordy; assumption.
  Qed.
  Lemma names_wpath p : path_ok p -> Forall (rust_chars xs xc) p -> wpath p.
  Proof.
    intros (l & NE & I & P) R. exists l. assert (RL : Forall (rust_chars xs xc) l) by (destruct P as [->| ->]; [exact R|inversion R; assumption]).
    split; [|split; [exact NE|exact P]]. rewrite Forall_forall in *. intros x Hx. apply name_wordy; auto.
  Qed.
  Lemma word_lit x : word_start xs (hd 0 x) = true -> forallb (word_char xs xc) (tl x) = true -> x <> [] -> wordy x.
  Proof. intros H H1 N. destruct x as [|c t]; [contradiction|]. left. exists c, t. split; [reflexivity|]. split; [exact H|]. rewrite forallb_forall in H1. apply Forall_forall. exact H1. Qed.
  (** What may follow a point *)
  Definition fieldw (x : str) : Prop := wordy x \/ first_digit x = true \/ hd_error x = Some 45.

  (** ** Expressions *)
  Definition lexd (r : rexpr) : Prop := Forall tlex (spaced r).
  Definition xok (r : rexpr) : Prop := RustShow.xok xs xc r /\ lexd r.
  Definition xarg (a : bool * bool * rexpr) : Prop := xok (snd a).
  Lemma xoks_piece l : Forall xok l -> Forall (RustShow.xok xs xc) l.
  Proof. apply Forall_impl. intros a H. apply H. Qed.
  Lemma xargs_piece l : Forall xarg l -> Forall (RustShow.xarg xs xc) l.
  Proof. apply Forall_impl. intros a H. apply H. Qed.
  Lemma tlex_between o ts : olex xs xc o -> Forall tlex ts -> Forall tlex (ReadSpec.between o ts).
  Proof. intros O T. constructor; [exact O|]. apply Forall_app. split; [exact T|]. constructor; [exact I|constructor]. Qed.
  Lemma tlex_comma : Forall tlex comma.
  Proof. repeat constructor; discriminate. Qed.
  Lemma tlex_sep s l : Forall tlex s -> Forall (Forall tlex) l -> Forall tlex (sep_toks s l).
  Proof. intros S H. induction H as [|x l H _ IH]; [constructor|]. destruct l as [|y l]; [exact H|]. change (Forall tlex (x ++ s ++ sep_toks s (y :: l))). apply Forall_app. split; [exact H|]. apply Forall_app. auto. Qed.
  Lemma xarg_lex a : xarg a -> Forall tlex (arg_spaced a).
  Proof.
    destruct a as [[b c] e]. intros [_ L]. cbn [snd] in L. unfold arg_spaced. destruct (b || c) eqn:E; [apply tlex_between; [exact E|exact L]|exact L].
  Qed.
  Lemma xargs_lex l : Forall xarg l -> Forall tlex (sep_toks comma (map arg_spaced l)).
  Proof. intros H. apply tlex_sep; [exact tlex_comma|]. induction H; constructor; [apply xarg_lex|]; assumption. Qed.
  Lemma xoks_lex l : Forall xok l -> Forall tlex (sep_toks comma (map spaced l)).
  Proof. intros H. apply tlex_sep; [exact tlex_comma|]. induction H as [|a l [_ H] _ IH]; constructor; assumption. Qed.
  Lemma tlex_one t : tlex t -> Forall tlex [t].
  Proof. intros H. constructor; [exact H|constructor]. Qed.
  Lemma x_bool s : In s [lit "true"; lit "false"] -> xok (RTok s).
  Proof. intros H. split; [apply x_tok, bool_piece, H|apply tlex_one; right; exact H]. Qed.
  Lemma x_num s : rust_number s -> xok (RTok s).
  Proof. intros H. split; [apply x_tok, num_piece, number_chars, H|apply tlex_one; left; exact H]. Qed.
  Lemma x_name s : wordy s -> xok (RName s).
  Proof. intros H. split; [apply x_name, wordy_piece, H|apply tlex_one, H]. Qed.
  Lemma x_str s : rust_string s -> xok (RStr s).
  Proof. intros H. split; [apply x_str, H|apply tlex_one, H]. Qed.
  Lemma x_chr s : rust_char s -> xok (RChar s).
  Proof. intros H. split; [apply x_chr, H|apply tlex_one, H]. Qed.
  Lemma x_path p : wpath p -> xok (RPath p).
  Proof. intros H. split; [apply x_path, wpath_pieces, H|apply tlex_one, H]. Qed.
  Lemma x_macro p a : wpath p -> piece a -> xok (RMacro p a).
  Proof. intros H H1. split; [apply x_macro; [apply wpath_pieces, H|exact H1]|apply tlex_one; split; assumption]. Qed.
  Lemma x_arr l : Forall xok l -> xok (RArr l).
  Proof. intros H. split; [apply x_arr, xoks_piece, H|]. apply tlex_between; [exact I|]. apply xoks_lex, H. Qed.
  Lemma x_tup l : Forall xok l -> xok (RTup l).
  Proof.
    intros H. split; [apply x_tup, xoks_piece, H|]. apply tlex_between; [exact I|]. apply tlex_sep; [apply tlex_one; discriminate|].
    induction H as [|a l [_ H] _ IH]; constructor; [|exact IH]. apply Forall_app. split; [exact H|apply tlex_one; exact I].
  Qed.
  Lemma x_field e x : xok e -> piece x -> fieldw x -> xok (RField e x).
  Proof. intros [H L] P F. split; [apply x_field; assumption|]. apply Forall_app. split; [exact L|apply tlex_one, F]. Qed.
  Lemma x_index e i : xok e -> xok i -> xok (RIndex e i).
  Proof. intros [H L] [H1 L1]. split; [apply x_index; assumption|]. apply Forall_app. split; [exact L|apply tlex_between; [exact I|exact L1]]. Qed.
  Lemma x_ref e : xok e -> xok (RRef e).
  Proof. intros [H L]. split; [apply x_ref, H|constructor; [exact I|exact L]]. Qed.
  Lemma x_deref e : xok e -> xok (RDeref e).
  Proof. intros [H L]. split; [apply x_deref, H|constructor; [exact I|exact L]]. Qed.
  Lemma x_un op e : In op unary_ops -> xok e -> xok (RUn op e).
  Proof. intros O [H L]. split; [apply x_un; assumption|constructor; [exact I|exact L]]. Qed.
  Lemma x_bin op l r : In op binary_ops -> xok l -> xok r -> xok (RBin op l r).
  Proof.
    intros O [H L] [H1 L1]. split; [apply x_bin; assumption|]. apply Forall_app. split; [exact L|]. constructor; [discriminate|]. constructor; [exact I|]. constructor; [discriminate|exact L1].
  Qed.
  Lemma x_range op l r : In op range_ops -> (forall e, l = Some e -> xok e) -> (forall e, r = Some e -> xok e) -> xok (RRange op l r).
  Proof.
    intros O H H1. split; [apply x_range; [exact O|intros e E; apply H, E|intros e E; apply H1, E]|]. apply Forall_app.
    split; [destruct l as [l|]; [apply (H l eq_refl)|constructor]|]. constructor; [exact I|]. destruct r as [r|]; [apply (H1 r eq_refl)|constructor].
  Qed.
  Lemma x_grp e : xok e -> xok (RGrp e).
  Proof. intros [H L]. split; [apply x_grp, H|apply tlex_between; [exact I|exact L]]. Qed.
  Lemma x_cycle e : xok e -> xok (RCycle e).
  Proof. intros [H L]. split; [apply x_cycle, H|apply tlex_between; [exact I|exact L]]. Qed.
  Lemma x_call f l : xok f -> Forall xarg l -> xok (RCall f l).
  Proof. intros [H L] H1. split; [apply x_call; [exact H|apply xargs_piece, H1]|]. apply Forall_app. split; [exact L|apply tlex_between; [exact I|apply xargs_lex, H1]]. Qed.
  Lemma x_try e : xok e -> xok (RTry e).
  Proof. intros [H L]. split; [apply x_try, H|apply tlex_between; [exact I|exact L]]. Qed.
  Lemma x_filter b n l : wordy n -> Forall xarg l -> xok (RFilter b n l).
  Proof. intros N H. split; [apply x_filter; [apply wordy_piece, N|apply xargs_piece, H]|apply tlex_between; [exact N|apply xargs_lex, H]]. Qed.
  Lemma x_safe esc a : piece esc -> xarg a -> xok (RSafe esc a).
  Proof. intros P H. split; [apply x_safe; [exact P|apply H]|apply (tlex_between (OSafe esc)); [exact P|apply xarg_lex, H]]. Qed.
  Lemma x_escape esc a : piece esc -> xarg a -> xok (REscape esc a).
  Proof. intros P H. split; [apply x_escape; [exact P|apply H]|apply (tlex_between (OEscape esc)); [exact P|apply xarg_lex, H]]. Qed.
  Lemma x_format f l : rust_string f -> Forall xarg l -> xok (RFormat f l).
  Proof.
    intros F H. split; [apply x_format; [exact F|apply xargs_piece, H]|]. apply (tlex_between (OFormat f)); [exact F|]. pose proof (xargs_lex l H) as L.
    destruct l; [constructor|]. constructor; [discriminate|exact L].
  Qed.
  Lemma x_join l : Forall xok l -> l <> [] -> xok (RJoin l).
  Proof.
    intros H N. split; [apply x_join; [apply xoks_piece, H|exact N]|]. apply (tlex_between OJoin); [exact I|]. destruct l as [|a l]; [contradiction|]. inversion H as [|? ? [_ L] H1]; subst.
    apply Forall_app. split; [exact L|]. constructor; [discriminate|]. clear - H1. induction H1 as [|b l [_ L] _ IH]; [constructor|]. cbn [map concat]. apply Forall_app.
    split; [apply Forall_app; split; [exact tlex_comma|exact L]|exact IH].
  Qed.
  Lemma x_markup esc e : piece esc -> xok e -> xok (RMarkup esc e).
  Proof. intros P [H L]. split; [apply x_markup; assumption|apply tlex_between; [exact P|exact L]]. Qed.

  (** ** Statements *)
  Notation pok := (RustShow.pok xs xc).
  Definition lexed (p : nat * rexpr) : Prop := lexd (snd p).
  Definition testok (t : rtest) : Prop :=
    match t with
    | RIf e => xok e
    | RIfLet p e => pok p /\ xok e
    | RIfLetChain p op l r => pok p /\ In op binary_ops /\ xok l /\ xok r
    | RElse => True
    end.
  Definition cokx (code : list stmt) : Prop := RustShow.cokx xs xc plain code /\ Forall lexed (all_exprs code).
  Definition eok (s : stmt) : Prop := epiece (stmt_text plain s) /\ Forall lexed (exprs_in s).
  Definition argsok (args : list (nat * rexpr)) : Prop := Forall (fun a => xok (snd a)) args.
  Lemma cok_nil : cokx [].
  Proof. split; [apply cok_nil|constructor]. Qed.
  Lemma cok_app a b : cokx a -> cokx b -> cokx (a ++ b).
  Proof. intros [A A1] [B B1]. split; [apply cok_app; assumption|]. unfold all_exprs. rewrite map_app, concat_app. apply Forall_app. auto. Qed.
  Lemma cok_one s : eok s -> cokx [s].
  Proof. intros [H H1]. split; [apply cok_one, H|]. unfold all_exprs. cbn [map concat]. rewrite app_nil_r. exact H1. Qed.
  Lemma args_piece args : argsok args -> RustShow.argsok xs xc args.
  Proof. apply Forall_impl. intros a H. apply H. Qed.
  Lemma args_lexed args : argsok args -> Forall lexed (map (fun a => (0%nat, RRef (snd a))) args).
  Proof. induction 1 as [|a l H _ IH]; cbn [map]; constructor; [apply (x_ref _ H)|exact IH]. Qed.
  Lemma e_write s : eok (SWriteStr s).
  Proof. split; [apply e_write|constructor]. Qed.
  Lemma e_fmt f a : argsok a -> eok (SWriteFmt f a).
  Proof. intros H. split; [apply e_fmt, args_piece, H|apply args_lexed, H]. Qed.
  Lemma e_declare p : pok p -> eok (SDeclare p).
  Proof. intros H. split; [apply e_declare, H|constructor]. Qed.
  Lemma e_let p e : pok p -> xok e -> eok (SLet p e).
  Proof. intros H [H1 L]. split; [apply e_let; assumption|constructor; [exact L|constructor]]. Qed.
  Lemma e_assign p e : pok p -> xok e -> eok (SAssign p e).
  Proof. intros H [H1 L]. split; [apply e_assign; assumption|constructor; [exact L|constructor]]. Qed.
  Lemma e_tuple names values : Forall wordy names -> Forall xok values -> eok (SLetTuple names values).
  Proof.
    intros H H1. split; [apply e_tuple; [eapply Forall_impl; [exact wordy_piece|exact H]|apply xoks_piece, H1]|]. cbn [exprs_in]. induction H1 as [|a l [_ L] _ IH]; constructor; assumption.
  Qed.
  Lemma e_letstr x s : piece x -> eok (SLetStr x s).
  Proof. intros H. split; [apply e_letstr, H|constructor]. Qed.
  Lemma e_letfmt x f a : piece x -> argsok a -> eok (SLetFmt x f a).
  Proof. intros H H1. split; [apply e_letfmt; [exact H|apply args_piece, H1]|apply args_lexed, H1]. Qed.
  Lemma test_piece t : testok t -> RustShow.testok xs xc t.
  Proof. destruct t as [e|p e|p op l r|]; cbn [testok RustShow.testok]; [intros H; apply H|intros [H H1]; split; [exact H|apply H1]| |auto]. intros (A & B & C & D). split; [exact A|]. split; [exact B|]. split; [apply C|apply D]. Qed.
  Lemma chain_lexd e : lexd e -> forall h rest, let_chain e = Some (h, rest) -> lexd h /\ Forall lexd rest.
  Proof.
    induction e; intros L h rest E; try (injection E as <- <-; split; [exact L|constructor]); try discriminate E.
    cbn [let_chain] in E. assert (LL : lexd e1 /\ lexd e2). { apply Forall_app in L as [L1 L2]. inversion L2 as [|? ? _ L3]; subst. inversion L3 as [|? ? _ L4]; subst. inversion L4; subst. split; assumption. }
    destruct LL as [L1 L2].
    destruct (str_eqb op (lit "&&")); [|destruct (str_eqb op (lit "||")); [discriminate E|injection E as <- <-; split; [exact L|constructor]]].
    destruct (let_chain e1) as [[h1 rest1]|] eqn:E1; [|discriminate E]. cbn in E. injection E as <- <-.
    destruct (IHe1 L1 _ _ eq_refl) as [A B]. split; [exact A|]. apply Forall_app. split; [exact B|]. constructor; [exact L2|constructor].
  Qed.
  Lemma test_lexed t : testok t -> Forall lexed (test_exprs t).
  Proof.
    destruct t as [e|p e|p op l r|]; cbn [testok test_exprs].
    - intros [_ L]. constructor; [exact L|constructor].
    - intros [_ H]. constructor; [apply (x_ref _ H)|constructor].
    - intros (_ & _ & [_ L] & [_ R]). destruct (if str_eqb op (lit "&&") then let_chain l else None) as [[h rest]|] eqn:E; [|constructor; [exact R|constructor]].
      destruct (str_eqb op (lit "&&")); [|discriminate E]. destruct (chain_lexd _ L _ _ E) as [A B]. constructor; [constructor; [exact I|exact A]|]. apply Forall_app.
      split; [clear - B; induction B; constructor; assumption|constructor; [exact R|constructor]].
    - constructor.
  Qed.
  Lemma e_if bs : Forall (fun b => testok (fst b) /\ cokx (snd b)) bs -> first_test bs -> eok (SIf bs).
  Proof.
    intros H F. split; [apply e_if; [|exact F]; eapply Forall_impl; [|exact H]; intros a [A B]; split; [apply test_piece, A|apply B]|]. cbn [exprs_in]. clear F.
    induction H as [|[t b] l [T [_ C]] _ IH]; cbn [map concat]; [constructor|]. apply Forall_app. split; [apply Forall_app; split; [apply test_lexed, T|exact C]|exact IH].
  Qed.
  Lemma e_match e arms : xok e -> Forall (fun a => pok (fst a) /\ cokx (snd a)) arms -> eok (SMatch e arms).
  Proof.
    intros H H1. split; [apply e_match; [apply H|]; eapply Forall_impl; [|exact H1]; intros a [A B]; split; [exact A|apply B]|]. cbn [exprs_in]. constructor; [apply (x_ref _ H)|].
    induction H1 as [|[t b] l [_ [_ C]] _ IH]; cbn [map concat]; [constructor|]. apply Forall_app. split; [exact C|exact IH].
  Qed.
  Lemma e_loop has it how flt var body els tail : xok it -> (forall p c, flt = Some (p, c) -> pok p /\ xok c) -> pok var -> cokx body -> cokx els -> cokx tail ->
    eok (SLoop has it how flt var body els tail).
  Proof.
    intros H HF HV [HB B] [HE E] [HT T]. split; [apply e_loop; auto; [apply H|]; intros p c Q; destruct (HF p c Q) as [A [C _]]; split; assumption|].
    cbn [exprs_in]. constructor.
    - destruct how; try exact (proj2 H); try exact (proj2 (x_ref _ H)). apply Forall_app. split; [apply Forall_app; split; [apply H|apply tlex_one; left; apply word_lit; [reflexivity|reflexivity|discriminate]]|apply tlex_between; [exact I|constructor]].
    - apply Forall_app. split; [destruct flt as [[p c]|]; [|constructor]; constructor; [apply (HF p c eq_refl)|constructor]|]. apply Forall_app. split; [exact B|]. apply Forall_app. split; assumption.
  Qed.
  Lemma e_block b : cokx b -> eok (SBlock b).
  Proof. intros [H H1]. split; [apply e_block, H|exact H1]. Qed.
  Lemma e_break : eok SBreak. Proof. split; [apply e_break|constructor]. Qed.
  Lemma e_continue : eok SContinue. Proof. split; [apply e_continue|constructor]. Qed.
  Lemma e_include p : eok (SIncludeBytes p).
  Proof. split; [apply e_include|constructor]. Qed.
End Show.
