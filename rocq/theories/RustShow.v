(** * The texts of generated expressions, patterns and statements are sequences of tokens with matching brackets. *)
From Verif Require Import Base Ws Ast LitSpec RustText ParseSpec TreeSpec Ident IdentFacts GenExpr Heritage Gen GenText RustSpec LexFacts RustFacts SimFacts.
From Coq Require Import Lia ZArith ZifyBool ZifyNat ZifyN.
Local Open Scope N_scope.
Set Default Proof Using "Type".

Section Show.
  Variables xs xc : N -> bool.
  Notation run := (RustText.run xs xc).
  Notation Goes := (RustFacts.Goes xs xc).
  Notation Ends := (RustFacts.Ends xs xc).
  Notation piece := (RustFacts.piece xs xc).
  Notation epiece := (RustFacts.epiece xs xc).
  Ltac ends1 := solve [reflexivity | match goal with H : epiece ?a |- RustFacts.Ends _ _ _ ?a _ => apply H end | apply debug_epiece].
  Ltac goes1 := solve [match goal with H : piece ?a |- RustFacts.Goes _ _ _ ?a _ => apply H end | eexists; split; reflexivity].
  Ltac lx :=
    lazymatch goal with
    | |- RustFacts.Ends _ _ _ (_ ++ _) _ => first [eapply ends_ends; [ends1|lx] | eapply goes_ends; [goes1|reflexivity|lx]]
    | |- RustFacts.Goes _ _ _ (_ ++ _) _ => first [eapply ends_goes; [ends1|lx] | eapply goes_goes; [goes1|reflexivity|lx]]
    | |- RustFacts.Ends _ _ _ _ _ => ends1
    | |- RustFacts.Goes _ _ _ _ _ => first [goes1 | apply ends_is; ends1]
    end.

  (** ** Expressions *)
  Definition xok (r : rexpr) : Prop := piece (show r).
  Definition xarg (a : bool * bool * rexpr) : Prop := xok (snd a).
  Lemma arg_piece b c s : piece s -> piece (show_arg b c s).
  Proof. intros H st. unfold show_arg. destruct c, b; cbv zeta; try rewrite <- !app_assoc; lx. Qed.
  Notation texts l := (map (fun a : bool * bool * rexpr => match a with (b, c, e) => show_arg b c (show e) end) l).
  Lemma args_piece l : Forall xarg l -> piece (join_with (lit ", ") (texts l)).
  Proof.
    intros H. apply join_piece; [intros st; reflexivity|reflexivity|]. induction H as [|[[b c] e] l H _ IH]; [constructor|]. constructor; [apply arg_piece, H|exact IH].
  Qed.
  Lemma exprs_piece l : Forall xok l -> Forall piece (map show l).
  Proof. induction 1; constructor; assumption. Qed.
  Lemma comma_piece l : Forall xok l -> piece (join_with (lit ", ") (map show l)).
  Proof. intros H. apply join_piece; [intros st; reflexivity|reflexivity|]. apply exprs_piece, H. Qed.
  Lemma path_piece p : Forall piece p -> piece (join_with (lit "::") p).
  Proof. intros H. apply join_piece; [intros st; reflexivity|reflexivity|exact H]. Qed.
  Lemma x_tok s : piece s -> xok (RTok s). Proof. exact (fun H => H). Qed.
  Lemma x_name s : piece s -> xok (RName s). Proof. exact (fun H => H). Qed.
  Lemma x_str s : rust_string s -> xok (RStr s).
  Proof. intros H st. apply ends_is, str_epiece, H. Qed.
  Lemma x_chr s : rust_char s -> xok (RChar s).
  Proof. intros H st. apply ends_is, chr_epiece, H. Qed.
  Lemma x_path p : Forall piece p -> xok (RPath p).
  Proof. exact (path_piece p). Qed.
  Lemma x_arr l : Forall xok l -> xok (RArr l).
  Proof. intros H st. pose proof (comma_piece l H). cbn [show]. lx. Qed.
  Lemma x_tup l : Forall xok l -> xok (RTup l).
  Proof.
    intros H st. assert (P : piece (join_with (lit " ") (map (fun e => show e ++ lit ",") l))).
    { apply join_piece; [intros st'; reflexivity|reflexivity|]. induction H as [|r l H _ IH]; constructor; [|exact IH]. unfold xok in H. intros st'. lx. }
    cbn [show]. lx.
  Qed.
  Lemma x_field e x : xok e -> piece x -> xok (RField e x).
  Proof. unfold xok. intros H H1 st. cbn [show]. lx. Qed.
  Lemma x_index e i : xok e -> xok i -> xok (RIndex e i).
  Proof. unfold xok. intros H H1 st. cbn [show]. lx. Qed.
  Lemma x_ref e : xok e -> xok (RRef e).
  Proof. unfold xok. intros H st. cbn [show]. lx. Qed.
  Lemma x_deref e : xok e -> xok (RDeref e).
  Proof. unfold xok. intros H st. cbn [show]. lx. Qed.
  Lemma x_un op e : In op unary_ops -> xok e -> xok (RUn op e).
  Proof. unfold xok. intros [<-|[<-|[]]] H st; cbn [show]; lx. Qed.
  Lemma x_bin op l r : In op binary_ops -> xok l -> xok r -> xok (RBin op l r).
  Proof. unfold xok. intros O H H1 st. cbn [show]. eapply goes_goes; [apply H|reflexivity|]. apply op_goes; [exact O|apply H1]. Qed.
  Lemma x_range op l r : In op range_ops -> (forall e, l = Some e -> xok e) -> (forall e, r = Some e -> xok e) -> xok (RRange op l r).
  Proof.
    unfold xok. intros O H H1 st. cbn [show].
    assert (R : Goes st (op ++ match r with Some r => show r | None => [] end) st).
    { destruct r as [r|]; [pose proof (H1 r eq_refl)|]; destruct O as [<-|[<-|[]]]; lx. }
    destruct l as [l|]; [|exact R]. eapply goes_goes; [apply (H l eq_refl)| |exact R]. destruct O as [<-|[<-|[]]]; reflexivity.
  Qed.
  Lemma x_grp e : xok e -> xok (RGrp e).
  Proof. unfold xok. intros H st. cbn [show]. lx. Qed.
  Lemma x_cycle e : xok e -> xok (RCycle e).
  Proof. unfold xok. intros H st. cbn [show]. lx. Qed.
  Lemma x_call f l : xok f -> Forall xarg l -> xok (RCall f l).
  Proof. unfold xok. intros H H1 st. pose proof (args_piece l H1). cbn [show]. lx. Qed.
  Lemma x_macro p a : Forall piece p -> piece a -> xok (RMacro p a).
  Proof. unfold xok. intros H H1 st. pose proof (path_piece p H). cbn [show]. lx. Qed.
  Lemma x_try e : xok e -> xok (RTry e).
  Proof. unfold xok. intros H st. cbn [show]. lx. Qed.
  Lemma x_filter b n l : piece n -> Forall xarg l -> xok (RFilter b n l).
  Proof. unfold xok. intros H H1 st. pose proof (args_piece l H1). cbn [show]. destruct b; rewrite <- ?app_assoc; lx. Qed.
  Lemma x_safe esc a : piece esc -> xarg a -> xok (RSafe esc a).
  Proof. unfold xok, xarg. destruct a as [[b c] e]. cbn [snd]. intros H H1 st. pose proof (arg_piece b c _ H1). cbn [show]. lx. Qed.
  Lemma x_escape esc a : piece esc -> xarg a -> xok (REscape esc a).
  Proof. unfold xok, xarg. destruct a as [[b c] e]. cbn [snd]. intros H H1 st. pose proof (arg_piece b c _ H1). cbn [show]. lx. Qed.
  Lemma x_format f l : rust_string f -> Forall xarg l -> xok (RFormat f l).
  Proof.
    unfold xok. intros H H1 st. pose proof (args_piece l H1) as A. cbn [show]. change (Goes st (lit "::std::format!(" ++ lit """" ++ f ++ lit """" ++
      match l with [] => [] | _ :: _ => lit ", " ++ join_with (lit ", ") (texts l) end ++ lit ")") st).
    eapply ends_goes; [reflexivity|]. apply str_goes; [exact H|]. cbn [snd]. destruct l as [|x l]; [apply ends_is; reflexivity|].
    revert A. generalize (join_with (lit ", ") (texts (x :: l))). intros J A. change (Goes (41 :: st) (lit ", " ++ J ++ lit ")") st). lx.
  Qed.
  Lemma x_join l : Forall xok l -> l <> [] -> xok (RJoin l).
  Proof.
    unfold xok. intros H N st. cbn [show]. destruct l as [|a l]; [contradiction|]. inversion H as [|? ? Ha Hl]; subst.
    assert (P : forall l, Forall xok l -> forall st, Goes (41 :: st) (concat (map (fun e => lit ", " ++ show e) l) ++ lit ")?") st).
    { clear. intros l H. induction H as [|r l H _ IH]; intros st; [apply ends_is; reflexivity|]. cbn [map concat]. rewrite <- !app_assoc. unfold xok in H.
      eapply ends_goes; [reflexivity|]. eapply goes_goes; [apply H|destruct l; reflexivity|apply IH]. }
    rewrite <- !app_assoc. eapply goes_goes; [eexists; split; reflexivity|reflexivity|]. eapply ends_goes; [reflexivity|]. cbn [snd].
    eapply goes_goes; [apply Ha|reflexivity|]. eapply ends_goes; [reflexivity|]. cbn [snd]. apply P, Hl.
  Qed.
  Lemma x_markup esc e : piece esc -> xok e -> xok (RMarkup esc e).
  Proof. unfold xok. intros H H1 st. cbn [show]. lx. Qed.

  (** ** Patterns *)
  Lemma amp_epiece b st : Ends st (amp b) st.
  Proof. destruct b; reflexivity. Qed.
  Lemma names_pieces p : path_ok p -> Forall (rust_chars xs xc) p -> Forall piece p.
  Proof.
    intros (l & _ & I & [->|[= ->]]) R.
    - rewrite Forall_forall in *. intros x Hx. apply name_piece; auto.
    - inversion R; subst. constructor; [exact (fun st => goes_nil xs xc st)|]. rewrite Forall_forall in *. intros x Hx. apply name_piece; auto.
  Qed.
  Lemma under_piece : piece (lit "_").
  Proof. intros st. eexists; split; reflexivity. Qed.
  Lemma target_piece t : wf_target t -> readable_target xs xc t -> forall b, piece (target_text b (norm_target t)).
  Proof.
    induction t as [x|p l IH|p l IH|s|s|s|s|p|l IH] using target_ind'; intros W R b; inversion W as [y W1 W2|q k W1 W2|q k W1 W2|q W1|q W1|q W1|q W1|q W1|k W1 W2]; subst;
      inversion R as [y R1|q k R1 R2|q k R1 R2|k R1|q R1|q|q|q R1|q R1]; subst; cbn [norm_target target_text].
    - destruct (str_eqb x (lit "_")) eqn:E; [apply name_piece; [exact W1|exact (proj1 R1)]|]. apply norm_piece; assumption.
    - assert (P : epiece (concat (map (fun t => target_text false t ++ lit ",") (map norm_target l)))).
      { apply concat_epiece. clear W R W1 R1. induction IH as [|t l Ht _ IH]; [constructor|]. inversion W2; subst. inversion R2; subst. cbn [map]. constructor; [|apply IH; assumption].
        intros st. assert (T : piece (target_text false (norm_target t))) by (apply Ht; assumption). lx. }
      assert (Q : piece (join_with (lit "::") p)). { destruct W1 as [->|W1]; [exact (fun st => goes_nil xs xc st)|]. apply path_piece, names_pieces; assumption. }
      intros st. lx.
    - assert (P : epiece (concat (map (fun x : str * target => fst x ++ lit ": " ++ target_text false (snd x) ++ lit ",")
                     (map (fun x => (normalize_identifier (fst x), norm_target (snd x))) l)))).
      { apply concat_epiece. clear W R W1 R1. induction IH as [|[k t] l Ht _ IH]; [constructor|]. inversion W2 as [|? ? [W3 W4] W5]; subst. inversion R2 as [|? ? [R3 R4] R5]; subst.
        cbn [map fst snd] in *. constructor; [|apply IH; assumption]. intros st. assert (T : piece (target_text false (norm_target t))) by (apply Ht; assumption).
        pose proof (norm_piece xs xc k W3 R3) as K. lx. }
      assert (Q : piece (join_with (lit "::") p)) by (apply path_piece, names_pieces; assumption).
      intros st. lx.
    - intros st. eapply ends_goes; [apply amp_epiece|]. apply num_piece, signed_chars, W1.
    - intros st. eapply ends_goes; [apply amp_epiece|]. apply ends_is, str_epiece, R1.
    - intros st. eapply ends_goes; [apply amp_epiece|]. apply ends_is, chr_epiece, R1.
    - intros st. eapply ends_goes; [apply amp_epiece|]. apply bool_piece. cbn in *. tauto.
    - apply path_piece, names_pieces; assumption.
    - assert (P : piece (join_with (lit " | ") (map (target_text b) (map norm_target l)))).
      { apply join_piece; [intros st; reflexivity|reflexivity|]. clear W R W1. induction IH as [|t l Ht _ IH]; [constructor|]. inversion W2; subst. inversion R1; subst. cbn [map].
        constructor; [apply Ht; assumption|apply IH; assumption]. }
      destruct l; [exact under_piece|exact P].
  Qed.

  (** ** Statements *)
  Definition pok (t : target) : Prop := forall b, piece (target_text b t).
  Definition testok (t : rtest) : Prop :=
    match t with
    | RIf e => xok e
    | RIfLet p e => pok p /\ xok e
    | RIfLetChain p op l r => pok p /\ In op binary_ops /\ xok l /\ xok r
    | RElse => True
    end.
  Variable plain : N -> bool.
  Definition cokx (code : list stmt) : Prop := epiece (code_text plain code).
  Definition argsok (args : list (nat * rexpr)) : Prop := Forall (fun a => xok (snd a)) args.
  Lemma cok_nil : cokx [].
  Proof. intros st. reflexivity. Qed.
  Lemma cok_app a b : cokx a -> cokx b -> cokx (a ++ b).
  Proof. unfold cokx, code_text. intros A B. rewrite map_app, concat_app. intros st. eapply ends_ends; [apply A|apply B]. Qed.
  Lemma cok_one s : epiece (stmt_text plain s) -> cokx [s].
  Proof. intros H st. unfold code_text. cbn [map concat]. rewrite app_nil_r. apply H. Qed.
  Lemma uint_num u : all_num (uint_str u).
  Proof. induction u; cbn [uint_str]; constructor; try assumption; reflexivity. Qed.
  Lemma arg_name_piece id : piece (arg_name id).
  Proof.
    intros st. destruct (num_piece xs xc (arg_name id)) with (st := st) as (m & E & R); [|exists m; split; assumption].
    unfold arg_name. apply all_num_app; [repeat constructor|]. apply uint_num.
  Qed.
  Lemma block_name_piece id : piece (filter_block_name id).
  Proof. apply num_piece. unfold filter_block_name. apply all_num_app; [repeat constructor|]. apply uint_num. Qed.
  Lemma args_text_piece args : argsok args -> piece (args_text args).
  Proof.
    intros H. apply join_piece; [intros st; reflexivity|reflexivity|]. induction H as [|[id r] l H _ IH]; [constructor|]. cbn [map]. constructor; [|exact IH].
    intros st. unfold arg_text, xok in *. cbn [fst snd] in *. pose proof (arg_name_piece id). lx.
  Qed.
  Lemma e_write s : epiece (stmt_text plain (SWriteStr s)).
  Proof. intros st. cbn [stmt_text]. lx. Qed.
  Lemma e_fmt f a : argsok a -> epiece (stmt_text plain (SWriteFmt f a)).
  Proof. intros H st. pose proof (args_text_piece a H). cbn [stmt_text]. lx. Qed.
  Lemma e_declare p : pok p -> epiece (stmt_text plain (SDeclare p)).
  Proof. intros H st. specialize (H true). cbn [stmt_text]. lx. Qed.
  Lemma e_let p e : pok p -> xok e -> epiece (stmt_text plain (SLet p e)).
  Proof. unfold xok. intros H H1 st. specialize (H true). cbn [stmt_text]. lx. Qed.
  Lemma e_assign p e : pok p -> xok e -> epiece (stmt_text plain (SAssign p e)).
  Proof. unfold xok. intros H H1 st. specialize (H true). cbn [stmt_text]. lx. Qed.
  Lemma e_tuple names values : Forall piece names -> Forall xok values -> epiece (stmt_text plain (SLetTuple names values)).
  Proof.
    intros H H1 st. assert (A : piece (join_with (lit ", ") names)) by (apply join_piece; [intros st'; reflexivity|reflexivity|exact H]).
    assert (B : piece (join_with (lit ", ") (map (fun e => lit "(" ++ show e ++ lit ")") values))).
    { apply join_piece; [intros st'; reflexivity|reflexivity|]. induction H1 as [|r l Hr _ IH]; constructor; [|exact IH]. unfold xok in Hr. intros st'. lx. }
    cbn [stmt_text]. lx.
  Qed.
  Lemma e_letstr x s : piece x -> epiece (stmt_text plain (SLetStr x s)).
  Proof. intros H st. cbn [stmt_text]. lx. Qed.
  Lemma e_letfmt x f a : piece x -> argsok a -> epiece (stmt_text plain (SLetFmt x f a)).
  Proof. intros H H1 st. pose proof (args_text_piece a H1). cbn [stmt_text]. lx. Qed.
  Definition first_test (l : list (rtest * list stmt)) : Prop := match l with (t, _) :: _ => t <> RElse | [] => False end.
  Lemma test_ends first t st : testok t -> (first = true -> t <> RElse) ->
    Ends (if first then st else 125 :: st) (test_text first t) (125 :: st).
  Proof.
    intros H F. unfold test_text. cbv zeta. destruct t as [e|p e|p op l r|]; cbn [testok] in H.
    - unfold xok in H. rewrite <- !app_assoc. destruct first; lx.
    - destruct H as [H H1]. specialize (H true). unfold xok in H1. rewrite <- !app_assoc. destruct first; lx.
    - destruct H as (H & O & H1 & H2). specialize (H true). unfold xok in H1, H2. rewrite <- !app_assoc.
      assert (Y : piece (lit " " ++ op ++ lit " " ++ show r)) by (intros k; apply op_goes; [exact O|apply H2]).
      assert (Z : forall k, Ends k ((lit " " ++ op ++ lit " " ++ show r) ++ lit " {" ++ NL) (125 :: k)) by (intros k; lx).
      assert (V : forall k, Ends k (show l ++ (lit " " ++ op ++ lit " " ++ show r) ++ lit " {" ++ NL) (125 :: k)).
      { intros k. eapply goes_ends; [apply H1|reflexivity|apply Z]. }
      rewrite <- !app_assoc in V. destruct first.
      + eapply ends_ends; [reflexivity|]. eapply ends_ends; [reflexivity|]. cbn [snd]. eapply goes_ends; [apply H|reflexivity|]. eapply ends_ends; [reflexivity|]. apply V.
      + eapply ends_ends; [reflexivity|]. eapply ends_ends; [reflexivity|]. cbn [snd]. eapply goes_ends; [apply H|reflexivity|]. eapply ends_ends; [reflexivity|]. apply V.
    - destruct first; [destruct (F eq_refl eq_refl)|]. lx.
  Qed.
  Lemma e_if bs : Forall (fun b => testok (fst b) /\ cokx (snd b)) bs -> first_test bs -> epiece (stmt_text plain (SIf bs)).
  Proof.
    intros H F st. cbn [stmt_text].
    set (go := fix go (first : bool) (l : list (rtest * list stmt)) : str :=
       match l with [] => lit "}" ++ NL | (t, body) :: l' => test_text first t ++ concat (map (stmt_text plain) body) ++ go false l' end).
    assert (G : forall l, Forall (fun b => testok (fst b) /\ cokx (snd b)) l -> Ends (125 :: st) (go false l) st).
    { clear. intros l H. induction H as [|[t body] l [T C] _ IH]; [reflexivity|]. cbn [fst snd] in *.
      change (go false ((t, body) :: l)) with (test_text false t ++ code_text plain body ++ go false l).
      eapply ends_ends; [apply (test_ends false t st T); discriminate|]. eapply ends_ends; [apply C|exact IH]. }
    destruct bs as [|[t body] l]; [destruct F|]. inversion H as [|? ? [T C] H']; subst. cbn [fst snd] in *.
    change (go true ((t, body) :: l)) with (test_text true t ++ code_text plain body ++ go false l).
    eapply ends_ends; [apply (test_ends true t st T); intros _; exact F|]. eapply ends_ends; [apply C|apply G, H'].
  Qed.
  Lemma e_match e arms : xok e -> Forall (fun a => pok (fst a) /\ cokx (snd a)) arms -> epiece (stmt_text plain (SMatch e arms)).
  Proof.
    unfold xok. intros H H1 st. cbn [stmt_text].
    assert (P : epiece (concat (map (fun a => match a with (p, body) => target_text true p ++ lit " => {" ++ NL ++ concat (map (stmt_text plain) body) ++ lit "}" ++ NL end) arms))).
    { apply concat_epiece. induction H1 as [|[p body] l [Q C] _ IH]; [constructor|]. cbn [map fst snd] in *. constructor; [|exact IH].
      intros st'. specialize (Q true). unfold cokx, code_text in C. lx. }
    lx.
  Qed.
  Lemma iter_piece how e : xok e -> piece (iter_text how e).
  Proof. unfold xok. intros H st. destruct how; cbn [iter_text]; lx. Qed.
  Lemma e_loop has it how flt var body els tail : xok it -> (forall p c, flt = Some (p, c) -> pok p /\ xok c) -> pok var -> cokx body -> cokx els -> cokx tail ->
    epiece (stmt_text plain (SLoop has it how flt var body els tail)).
  Proof.
    intros H HF HV HB HE HT st. cbn [stmt_text]. pose proof (iter_piece how it H) as I. specialize (HV true). unfold cokx, code_text in HB, HE, HT.
    assert (D : forall k, Ends k (if has then lit "let mut _did_loop = false;" ++ NL else []) k) by (intros k; destruct has; reflexivity).
    assert (D1 : forall k, Ends k (if has then lit "_did_loop = true;" ++ NL else []) k) by (intros k; destruct has; reflexivity).
    assert (D2 : epiece match flt with Some (p, c) => lit "let _iter = _iter.filter(|" ++ target_text true p ++ lit "| -> bool {" ++ show c ++ lit "});" ++ NL | None => [] end).
    { intros k. destruct flt as [[p c]|]; [|reflexivity]. destruct (HF p c eq_refl) as [A B]. specialize (A true). unfold xok in B. lx. }
    assert (D3 : epiece (if has then lit "if !_did_loop {" ++ NL ++ concat (map (stmt_text plain) els) ++ lit "}" ++ NL else concat (map (stmt_text plain) els))).
    { intros k. destruct has; lx. }
    eapply ends_ends; [reflexivity|]. eapply ends_ends; [reflexivity|]. eapply ends_ends; [apply D|]. eapply ends_ends; [reflexivity|]. cbn [snd].
    eapply goes_ends; [apply I|reflexivity|]. eapply ends_ends; [reflexivity|]. eapply ends_ends; [reflexivity|]. eapply ends_ends; [apply D2|].
    eapply ends_ends; [reflexivity|]. cbn [snd]. eapply goes_ends; [apply HV|reflexivity|]. eapply ends_ends; [reflexivity|]. cbn [snd].
    eapply goes_ends; [eexists; split; reflexivity|reflexivity|]. eapply ends_ends; [reflexivity|]. cbn [snd]. eapply ends_ends; [reflexivity|]. eapply ends_ends; [apply D1|].
    eapply ends_ends; [apply HB|]. cbn [snd]. eapply ends_ends; [reflexivity|]. eapply ends_ends; [reflexivity|]. eapply ends_ends; [apply D3|]. eapply ends_ends; [apply HT|]. reflexivity.
  Qed.
  Lemma e_block b : cokx b -> epiece (stmt_text plain (SBlock b)).
  Proof. unfold cokx, code_text. intros H st. cbn [stmt_text]. lx. Qed.
  Lemma e_break : epiece (stmt_text plain SBreak). Proof. intros st. reflexivity. Qed.
  Lemma e_continue : epiece (stmt_text plain SContinue). Proof. intros st. reflexivity. Qed.
  Lemma e_include p : epiece (stmt_text plain (SIncludeBytes p)).
  Proof. intros st. cbn [stmt_text]. lx. Qed.

  (** ** The whole text *)
  Lemma files_ok l : cokx (map SIncludeBytes l).
  Proof. induction l as [|p l IH]; [apply cok_nil|]. apply (cok_app [SIncludeBytes p]); [apply cok_one, e_include|exact IH]. Qed.
  Lemma header_for_ends fr impl target st : piece impl -> piece (fr_name fr ++ fr_where fr) -> piece target -> Ends st (header_text_for fr impl target) (125 :: st).
  Proof.
    intros H1 H2 P. unfold header_text_for.
    replace (fr_name fr ++ fr_where fr ++ lit " {" ++ NL) with ((fr_name fr ++ fr_where fr) ++ lit " {" ++ NL) by (rewrite <- app_assoc; reflexivity).
    revert H1 H2. generalize (fr_name fr ++ fr_where fr). intros b H1 H2. lx.
  Qed.
  Lemma header_ends fr target st : readable_frame xs xc fr -> piece target -> Ends st (header_text fr target) (125 :: st).
  Proof. intros (H1 & _ & H2) P. apply closed_piece in H1, H2. apply header_for_ends; assumption. Qed.
  Lemma template_ends fr code size : readable_frame xs xc fr -> cokx code -> epiece (impl_template_text plain fr code size).
  Proof.
    intros H C st. pose proof (files_ok (fr_files fr)) as F. unfold cokx in C, F. unfold impl_template_text. 
    eapply ends_ends; [apply header_ends; [exact H|intros k; eexists; split; reflexivity]|].
    eapply ends_ends; [reflexivity|]. cbn [snd]. eapply goes_ends; [eexists; split; reflexivity|reflexivity|]. eapply ends_ends; [reflexivity|]. eapply ends_ends; [reflexivity|]. cbn [snd].
    eapply ends_ends; [apply F|]. eapply ends_ends; [apply C|].
    eapply goes_ends; [eexists; split; reflexivity|reflexivity|]. eapply ends_ends; [reflexivity|]. cbn [snd].
    eapply ends_ends; [reflexivity|]. cbn [snd]. eapply ends_ends; [reflexivity|]. cbn [snd]. eapply ends_ends; [reflexivity|]. cbn [snd]. eapply ends_ends; [reflexivity|]. eapply ends_ends; [reflexivity|]. cbn [snd].
    assert (X : piece match fr_extension fr with Some x => lit "Some(" ++ debug_str plain x ++ lit ")" | None => lit "None" end).
    { intros k. destruct (fr_extension fr); lx. }
    assert (Z : piece (uint_str (N.to_uint size))) by (apply num_piece, uint_num).
    eapply goes_ends; [apply X|reflexivity|]. eapply ends_ends; [reflexivity|]. eapply ends_ends; [reflexivity|]. eapply ends_ends; [reflexivity|]. eapply ends_ends; [reflexivity|]. eapply ends_ends; [reflexivity|]. cbn [snd].
    eapply goes_ends; [apply Z|reflexivity|]. eapply ends_ends; [reflexivity|]. eapply ends_ends; [reflexivity|]. eapply ends_ends; [reflexivity|]. eapply ends_ends; [reflexivity|]. eapply ends_ends; [reflexivity|]. cbn [snd].
    eapply ends_ends; [apply debug_epiece|]. eapply ends_ends; [reflexivity|]. eapply ends_ends; [reflexivity|]. eapply ends_ends; [reflexivity|]. eapply ends_ends; [reflexivity|]. reflexivity.
  Qed.
  Lemma display_ends fr : readable_frame xs xc fr -> epiece (impl_display_text fr).
  Proof. intros H st. unfold impl_display_text. eapply ends_ends; [apply header_ends; [exact H|intros k; eexists; split; reflexivity]|]. reflexivity. Qed.
  Lemma feature_ends (on : bool) text : epiece text -> epiece (with_feature on text).
  Proof. intros H st. destruct on; [apply H|reflexivity]. Qed.
  Lemma actix_ends fr : readable_frame xs xc fr -> epiece (impl_actix_text fr).
  Proof. intros H st. unfold impl_actix_text. eapply ends_ends; [apply header_ends; [exact H|intros k; eexists; split; reflexivity]|]. reflexivity. Qed.
  Lemma axum_ends fr : readable_frame xs xc fr -> epiece (impl_axum_text fr).
  Proof. intros H st. unfold impl_axum_text. eapply ends_ends; [apply header_ends; [exact H|intros k; eexists; split; reflexivity]|]. reflexivity. Qed.
  Lemma rocket_ends fr : readable_frame xs xc fr -> epiece (impl_rocket_text fr).
  Proof.
    intros (_ & H1 & H2) st. apply closed_piece in H1, H2. unfold impl_rocket_text.
    eapply ends_ends; [apply header_for_ends; [exact H1|exact H2|intros k; eexists; split; reflexivity]|]. reflexivity.
  Qed.
  Lemma warp_ends fr : readable_frame xs xc fr -> epiece (impl_warp_text fr).
  Proof. intros H st. unfold impl_warp_text. eapply ends_ends; [apply header_ends; [exact H|intros k; eexists; split; reflexivity]|]. reflexivity. Qed.
  Lemma source_ends fr code size : readable_frame xs xc fr -> cokx code -> epiece (source_text plain fr code size).
  Proof.
    intros H C st. unfold source_text. eapply ends_ends; [apply template_ends; assumption|]. eapply ends_ends; [apply display_ends, H|].
    eapply ends_ends; [apply feature_ends, actix_ends, H|]. eapply ends_ends; [apply feature_ends, axum_ends, H|]. eapply ends_ends; [apply feature_ends, rocket_ends, H|].
    apply feature_ends, warp_ends, H.
  Qed.
End Show.
