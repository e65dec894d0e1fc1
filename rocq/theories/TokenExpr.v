(** * Whole expressions: blanks after the tokens change nothing. *)
From Verif Require Import Base Ws Ast LitSpec RustText TokenSpec ParseSpec TreeSpec Ident IdentFacts GenExpr ReadSpec RexprFacts ReadFacts RustFacts TokenFacts TokenRead.
From Coq Require Import Lia ZArith ZifyBool ZifyNat ZifyN.
Local Open Scope N_scope.
Set Default Proof Using "Type".

Section Expr.
  Variables xs xc : N -> bool.
  Notation wstart := (RustText.word_start xs).
  Notation tstep := (TokenSpec.tstep xs xc).
  Notation trun := (TokenSpec.trun xs xc).
  Notation piece := (RustFacts.piece xs xc).
  Notation bnd := (TokenFacts.bnd xs xc).
  Notation Run := (TokenFacts.Run xs xc).
  Notation start := TokenFacts.start.
  Notation fine := (TokenFacts.fine xs xc).
  Notation pause := (TokenFacts.pause xs xc).
  Notation wordy := (TokenFacts.wordy xs xc).
  Notation ender := (TokenRead.ender xs xc).
  Notation wpath := (TokenRead.wpath xs xc).
  Notation top st cur out := ((MTop, st), cur, out).

  (** ** Brackets *)
  Definition brk (o : opening) : list N :=
    match o with
    | OGroup | OTry | OFilter _ _ | OSafe _ | OEscape _ | OFormat _ => [41]
    | OArray => [93]
    | OCycle => [41; 125; 41]
    | OJoin | OMarkup _ => [41; 41]
    | OArg b c => (if c : bool then [125] else []) ++ (if b : bool then [41] else [])
    end.
  Definition olex (o : opening) : Prop :=
    match o with
    | OFilter _ n => wordy n
    | OSafe e | OEscape e | OMarkup e => piece e
    | OFormat f => rust_string f
    | OArg b c => b || c = true
    | _ => True
    end.
  Definition opens (q : tstate) (o : opening) : Prop := match opening_text o with c :: _ => tstep q c = tstep (cut q) c | [] => False end.
  Lemma start_opens q o : start q -> olex o -> opens q o.
  Proof.
    intros S L. unfold opens. destruct o as [| | | |b n|e|e|f| |e|b c]; cbn [opening_text]; try (apply start_step; [exact S|reflexivity]).
    - destruct b; apply start_step; try exact S; reflexivity.
    - destruct b, c; try discriminate L; apply start_step; try exact S; reflexivity.
  Qed.
  Definition opened (q : tstate) : Prop := startx q /\ fine q.
  Lemma bracket_opened st c out : In c [40; 91; 123] -> opened (top st [c] out).
  Proof.
    intros H. split; [split|].
    - split; [reflexivity|]. right. repeat (destruct H as [<-|H]; [split; [cbn; tauto|discriminate]|]). destruct H.
    - apply not_dots. repeat (destruct H as [<-|H]; [intros [X|[X|[]]]; discriminate X|]). destruct H.
    - apply inert_top; repeat (destruct H as [<-|H]; [reflexivity|]); destruct H.
  Qed.
  Lemma comma_opened st out : opened (top st [] (out ++ [lit ","])).
  Proof.
    split; [split|].
    - split; [reflexivity|]. left. split; [reflexivity|]. rewrite last_snoc. split; [reflexivity|discriminate].
    - apply not_dots. intros [X|[X|[]]]; discriminate X.
    - split; [reflexivity|]. intros c _. right. apply cont_nil.
  Qed.
  Lemma blank_step m st cur out : ready m = true -> tstep ((m, st), cur, out) 32 = Some (top st [] (out ++ flush cur)).
  Proof. intros R. exact (ready_pause xs xc ((m, st), cur, out) R). Qed.
  Lemma escaper_run P st out esc : (forall st out, exists out', trun (top st [] out) P = Some (top (41 :: st) (lit "(") out')) -> piece esc ->
    exists out', trun (top st [] out) (P ++ esc ++ lit ", ") = Some (top (41 :: st) [] (out' ++ [lit ","])).
  Proof.
    intros HP H. destruct (HP st out) as (out1 & R1). destruct (piece_run_cur xs xc esc (41 :: st) (lit "(") out1 H) as (m & cur & out2 & R2 & M).
    destruct (ready_step xs xc m (41 :: st) cur out2 44 M eq_refl) as (out3 & R3). exists out3. rewrite trun_app, R1, trun_app, R2. change (lit ", ") with [44; 32]. cbn [TokenSpec.trun]. rewrite R3, blank_step by reflexivity. reflexivity.
  Qed.
  Lemma filter_run P st out n : (forall st out, exists out', trun (top st [] out) P = Some (top st (lit "::") out')) -> wordy n ->
    exists out', trun (top st [] out) (P ++ n ++ lit "(") = Some (top (41 :: st) (lit "(") out').
  Proof.
    intros HP H. destruct (HP st out) as (out1 & R1). destruct (word_run_t xs xc st (lit "::") out1 n eq_refl H) as (q & R2 & F & K).
    eexists. rewrite trun_app, R1, trun_app, R2. change (lit "(") with [40]. rewrite cut_run by (apply fine_step; [exact F|reflexivity]). cbn [TokenSpec.trun]. rewrite (top_first xs xc _ _ 40 (MTop, 41 :: stk q)) by reflexivity. rewrite K. reflexivity.
  Qed.
  Ltac fixed := eexists; vm_compute; reflexivity.
  Lemma opening_run o st out : olex o -> match o with OFormat _ => True | _ => exists q, trun (top st [] out) (opening_text o) = Some q /\ opened q /\ stk q = brk o ++ st end.
  Proof.
    assert (B : forall s c st' out, In c [40; 91; 123] -> (exists out', trun (top st [] out) s = Some (top st' [c] out')) -> exists q, trun (top st [] out) s = Some q /\ opened q /\ stk q = st').
    { intros s c st' out0 C (out' & R). eexists. split; [exact R|]. split; [apply bracket_opened, C|reflexivity]. }
    intros L. destruct o as [| | | |b n|e|e|f| |e|b c]; cbn [opening_text brk olex] in *.
    - apply (B _ 40); [cbn; tauto|]. fixed.
    - apply (B _ 91); [cbn; tauto|]. fixed.
    - apply (B _ 40); [cbn; tauto|]. fixed.
    - apply (B _ 40); [cbn; tauto|]. fixed.
    - apply (B _ 40); [cbn; tauto|]. destruct b.
      + apply (filter_run (CRATE ++ lit "::" ++ lit "filters::")); [|exact L]. intros st1 out1. fixed.
      + apply (filter_run (lit "filters::")); [|exact L]. intros st1 out1. fixed.
    - destruct (escaper_run (CRATE ++ lit "::filters::safe(") st out e) as (out' & R); [intros st1 out1; fixed|exact L|]. rewrite <- app_assoc in R. eexists. split; [exact R|]. split; [apply comma_opened|reflexivity].
    - destruct (escaper_run (CRATE ++ lit "::filters::escape(") st out e) as (out' & R); [intros st1 out1; fixed|exact L|]. rewrite <- app_assoc in R. eexists. split; [exact R|]. split; [apply comma_opened|reflexivity].
    - exact I.
    - apply (B _ 40); [cbn; tauto|]. fixed.
    - apply (B _ 40); [cbn; tauto|]. fixed.
    - destruct b, c; try discriminate L; cbn [app]; [apply (B _ 123)|apply (B _ 40)|apply (B _ 123)]; try (cbn; tauto); fixed.
  Qed.
  Lemma b_open q o : opens q o -> olex o -> (forall f, o <> OFormat f) -> exists q1, bnd q (opening_text o) q1 /\ opened q1 /\ stk q1 = brk o ++ stk q.
  Proof.
    intros O L F. pose proof (opening_run o (stk q) (snd (cut q)) L) as H. assert (H' : exists q1, trun (top (stk q) [] (snd (cut q))) (opening_text o) = Some q1 /\ opened q1 /\ stk q1 = brk o ++ stk q) by (destruct o; try exact H; exfalso; eapply F; reflexivity).
    destruct H' as (q1 & R & P & K). exists q1. split; [|split; assumption]. unfold opens in O. destruct (opening_text o) as [|c t]; [destruct O|]. apply bnd_go; [exact O|exact R|apply (fine_ready xs xc), P].
  Qed.
  Lemma closing_run o st out : olex o -> o <> OJoin -> exists q, trun (top (brk o ++ st) [] out) (closing o) = Some q /\ fine q /\ stk q = st.
  Proof.
    assert (B : forall s c st0 out, In c [41; 93; 125; 63] -> (exists out', trun (top st0 [] out) s = Some (top st [c] out')) -> exists q, trun (top st0 [] out) s = Some q /\ fine q /\ stk q = st).
    { intros s c st0 out0 C (out' & R). eexists. split; [exact R|]. split; [|reflexivity]. apply inert_top; repeat (destruct C as [<-|C]; [reflexivity|]); destruct C. }
    intros L J. destruct o as [| | | |b n|e|e|f| |e|b c]; cbn [closing brk olex app] in *; try contradiction.
    - apply (B _ 41); [cbn; tauto|]. fixed.
    - apply (B _ 93); [cbn; tauto|]. fixed.
    - apply (B _ 41); [cbn; tauto|]. fixed.
    - apply (B _ 63); [cbn; tauto|]. fixed.
    - apply (B _ 63); [cbn; tauto|]. fixed.
    - apply (B _ 63); [cbn; tauto|]. fixed.
    - apply (B _ 63); [cbn; tauto|]. fixed.
    - apply (B _ 41); [cbn; tauto|]. fixed.
    - assert (X : exists out', trun (top (41 :: 41 :: st) [] out) (lit "), ") = Some (top (41 :: st) [] out')) by fixed. destruct X as (out1 & X).
      destruct (piece_run xs xc e (41 :: st) out1 L) as (m & cur & out2 & R2 & M). destruct (ready_close xs xc m st cur out2 M) as (out3 & R3).
      apply (B _ 41); [cbn; tauto|]. exists out3. rewrite trun_app, X, trun_app, R2. change (lit ")") with [41]. cbn [TokenSpec.trun]. rewrite R3. reflexivity.
    - destruct b, c; try discriminate L; cbn [app]; [apply (B _ 41)|apply (B _ 41)|apply (B _ 125)]; try (cbn; tauto); fixed.
  Qed.
  Lemma closing_first o : olex o -> exists c t, closing o = c :: t /\ existsb (N.eqb c) [41; 93; 125; 44; 32] = true.
  Proof. intros L. destruct o as [| | | |b n|e|e|f| |e|b c]; try (eexists; eexists; split; reflexivity). destruct b, c; try discriminate L; eexists; eexists; split; reflexivity. Qed.
  Lemma b_close q o st : ender q -> olex o -> o <> OJoin -> stk q = brk o ++ st -> exists q1, bnd q (closing o) q1 /\ fine q1 /\ stk q1 = st.
  Proof.
    intros E L J K. destruct (closing_run o st (snd (cut q)) L J) as (q1 & R & F & K1). exists q1. split; [|split; assumption]. rewrite <- K in R.
    destruct (closing_first o L) as (c & t & X & C). rewrite X in *. apply bnd_go; [apply ender_step; assumption|exact R|apply (fine_ready xs xc), F].
  Qed.
  Lemma Run_between q o ts : opens q o -> olex o -> o <> OJoin -> (forall f, o <> OFormat f) ->
    (forall q, opened q -> exists q', Run q ts q' /\ stk q' = stk q /\ ender q') -> exists q', Run q (ReadSpec.between o ts) q' /\ stk q' = stk q /\ fine q'.
  Proof.
    intros O L J F H. destruct (b_open q o O L F) as (q1 & B1 & P1 & K1). destruct (H q1 P1) as (q2 & R2 & K2 & E2). rewrite K1 in K2. destruct (b_close q2 o (stk q) E2 L J K2) as (q3 & B3 & F3 & K3).
    exists q3. split; [|split; assumption]. unfold ReadSpec.between. eapply Run_cons; [exact B1|]. eapply Run_app; [exact R2|]. eapply Run_cons; [exact B3|reflexivity].
  Qed.

  (** ** Separators *)
  Lemma b_comma q : ender q -> exists out, bnd q (lit ",") (top (stk q) [44] out).
  Proof.
    intros E. exists (snd (cut q)). change (lit ",") with [44]. apply bnd_go; [apply ender_step; [exact E|reflexivity]| |reflexivity]. cbn [TokenSpec.trun]. rewrite (top_first xs xc _ _ 44 (MTop, stk q)) by reflexivity. reflexivity.
  Qed.
  Lemma comma_ender st out : ender (top st [44] out).
  Proof. left. apply inert_top; reflexivity. Qed.
  Lemma b_blank_comma st out : exists q, bnd (top st [44] out) (lit " ") q /\ opened q /\ stk q = st.
  Proof. eexists. split; [apply bnd_blank, (ender_pause xs xc), comma_ender|]. split; [apply comma_opened|reflexivity]. Qed.
  Lemma Run_comma q : ender q -> exists q', Run q comma q' /\ opened q' /\ stk q' = stk q.
  Proof.
    intros E. destruct (b_comma q E) as (out & B). destruct (b_blank_comma (stk q) out) as (q' & B' & P & K). exists q'. split; [|split; assumption]. eapply Run_cons; [exact B|]. eapply Run_cons; [exact B'|reflexivity].
  Qed.
  Definition item (ts : list tok) : Prop := forall q, startx q -> exists q', Run q ts q' /\ stk q' = stk q /\ ender q'.
  Lemma Run_items l : Forall item l -> forall q, opened q -> exists q', Run q (sep_toks comma l) q' /\ stk q' = stk q /\ ender q'.
  Proof.
    induction 1 as [|x l Hx Hl IH]; intros q [S F]; [exists q; split; [reflexivity|split; [reflexivity|left; exact F]]|]. destruct (Hx q S) as (q1 & R1 & K1 & E1).
    destruct l as [|y l]; [exists q1; split; [exact R1|split; assumption]|]. change (sep_toks comma (x :: y :: l)) with (x ++ comma ++ sep_toks comma (y :: l)).
    destruct (Run_comma q1 E1) as (q2 & R2 & P2 & K2). destruct (IH q2 P2) as (q3 & R3 & K3 & E3). exists q3. split; [|split; [congruence|exact E3]]. eapply Run_app; [exact R1|]. eapply Run_app; eassumption.
  Qed.
  Lemma Run_elements l : Forall item l -> forall q, opened q -> exists q', Run q (sep_toks [TBlank (lit " ")] (map (fun ts => ts ++ [TSep]) l)) q' /\ stk q' = stk q /\ ender q'.
  Proof.
    induction 1 as [|x l Hx Hl IH]; intros q [S F]; [exists q; split; [reflexivity|split; [reflexivity|left; exact F]]|]. destruct (Hx q S) as (q1 & R1 & K1 & E1). destruct (b_comma q1 E1) as (out & B).
    destruct l as [|y l].
    - eexists. split; [cbn [map sep_toks]; eapply Run_app; [exact R1|]; eapply Run_cons; [exact B|reflexivity]|]. split; [exact K1|apply comma_ender].
    - destruct (b_blank_comma (stk q1) out) as (q2 & B2 & P2 & K2). destruct (IH q2 P2) as (q3 & R3 & K3 & E3). exists q3. split; [|split; [congruence|exact E3]].
      change (sep_toks [TBlank (lit " ")] (map (fun ts => ts ++ [TSep]) (x :: y :: l))) with ((x ++ [TSep]) ++ [TBlank (lit " ")] ++ sep_toks [TBlank (lit " ")] (map (fun ts => ts ++ [TSep]) (y :: l))).
      eapply Run_app; [eapply Run_app; [exact R1|eapply Run_cons; [exact B|reflexivity]]|]. eapply Run_app; [eapply Run_cons; [exact B2|reflexivity]|exact R3].
  Qed.

  (** ** Expressions *)
  Definition tlex (t : tok) : Prop :=
    match t with
    | TAtom (RTok s) => rust_number s \/ In s [lit "true"; lit "false"]
    | TAtom (RStr s) => rust_string s
    | TAtom (RChar s) => rust_char s
    | TAtom (RName x) => wordy x
    | TAtom (RPath p) => wpath p
    | TAtom (RMacro p a) => wpath p /\ piece a
    | TAtom _ => False
    | TDot x => wordy x \/ first_digit x = true \/ hd_error x = Some 45
    | TOpen o => olex o
    | TBlank s => s <> lit "&"
    | _ => True
    end.
  Definition done (e : rexpr) (q : tstate) : Prop :=
    fine q \/ numb q /\ ((firmness e < 11)%nat \/ is_number e = true) \/ firmness e = 0%nat /\ dots q.
  Lemma done_ender e q : done e q -> ender q.
  Proof. intros [H|[[H _]|[_ H]]]; [left; exact H|right; left; exact H|right; right; exact H]. Qed.
  Lemma done_firm e q : done e q -> (1 <= firmness e)%nat -> fine q \/ numb q /\ ((firmness e < 11)%nat \/ is_number e = true).
  Proof. intros [H|[H|[H _]]] F; [left; exact H|right; exact H|lia]. Qed.
  Definition runs (e : rexpr) : Prop := grammatical e -> Forall tlex (spaced e) -> forall q, start q -> (dots q -> (1 <= firmness e)%nat) -> exists q', Run q (spaced e) q' /\ stk q' = stk q /\ done e q'.
  Lemma runs_item e : runs e -> grammatical e -> Forall tlex (spaced e) -> item (spaced e).
  Proof. intros H G L q [S D]. destruct (H G L q S) as (q' & R & K & E); [intros X; contradiction|]. exists q'. split; [exact R|]. split; [exact K|]. eapply done_ender, E. Qed.
  Lemma sep_in s l : Forall tlex (sep_toks s l) -> Forall (Forall tlex) l.
  Proof.
    induction l as [|x l IH]; intros H; [constructor|]. destruct l as [|y l]; [constructor; [exact H|constructor]|]. change (sep_toks s (x :: y :: l)) with (x ++ s ++ sep_toks s (y :: l)) in H.
    apply Forall_app in H as [H1 H]. apply Forall_app in H as [_ H]. constructor; [exact H1|apply IH, H].
  Qed.
  Lemma in_between o ts : Forall tlex (ReadSpec.between o ts) -> olex o /\ Forall tlex ts.
  Proof. unfold ReadSpec.between. intros H. inversion H as [|? ? A B]; subst. apply Forall_app in B as [B _]. split; assumption. Qed.
  Definition sarg (a : bool * bool * rexpr) : list tok := match a with (b, c, e) => if b || c then ReadSpec.between (OArg b c) (spaced e) else spaced e end.
  Lemma item_opened ts : item ts -> forall q, opened q -> exists q', Run q ts q' /\ stk q' = stk q /\ ender q'.
  Proof. intros H q [S _]. exact (H q S). Qed.
  Lemma arg_item a : runs (snd a) -> grammatical (snd a) -> Forall tlex (sarg a) -> item (sarg a).
  Proof.
    destruct a as [[b c] e]. cbn [snd sarg]. intros H G L. destruct (b || c) eqn:E; [|apply runs_item; assumption]. apply in_between in L as [L1 L2]. intros q [S D].
    destruct (Run_between q (OArg b c) (spaced e)) as (q' & R & K & F); [apply start_opens; assumption|exact L1|discriminate|discriminate|apply item_opened, runs_item; assumption|].
    exists q'. split; [exact R|]. split; [exact K|]. left. exact F.
  Qed.
  Lemma args_items l : PArgs runs l -> Forall (fun a => grammatical (snd a)) l -> Forall (Forall tlex) (map sarg l) -> Forall item (map sarg l).
  Proof.
    induction 1 as [|a l H _ IH]; intros G L; [constructor|]. inversion G; subst. cbn [map] in *. inversion L; subst. constructor; [apply arg_item; assumption|apply IH; assumption].
  Qed.
  Lemma list_items l : Forall runs l -> Forall grammatical l -> Forall (Forall tlex) (map spaced l) -> Forall item (map spaced l).
  Proof.
    induction 1 as [|a l H _ IH]; intros G L; [constructor|]. inversion G; subst. cbn [map] in *. inversion L; subst. constructor; [apply runs_item; assumption|apply IH; assumption].
  Qed.
  (** An expression in brackets *)
  Lemma runs_between e o ts : spaced e = ReadSpec.between o ts -> o <> OJoin -> (forall f, o <> OFormat f) ->
    (grammatical e -> Forall tlex ts -> forall q, opened q -> exists q', Run q ts q' /\ stk q' = stk q /\ ender q') -> runs e.
  Proof.
    intros E J F H G L q S _. rewrite E in *. apply in_between in L as [L1 L2]. destruct (Run_between q o ts) as (q' & R & K & P); [apply start_opens; assumption|exact L1|exact J|exact F|apply H; assumption|].
    exists q'. split; [exact R|]. split; [exact K|]. left. exact P.
  Qed.
  (** Brackets after an operand *)
  Lemma Run_suffix q o ts : (o = OGroup \/ o = OArray) -> (fine q \/ numb q) -> (forall q, opened q -> exists q', Run q ts q' /\ stk q' = stk q /\ ender q') ->
    exists q', Run q (ReadSpec.between o ts) q' /\ stk q' = stk q /\ fine q'.
  Proof.
    intros O S H. assert (X : opens q o).
    { destruct O as [-> | ->]; cbn [opens opening_text]; (destruct S as [S|S]; [apply fine_step; [exact S|reflexivity]|apply num_step; [exact S|reflexivity]]). }
    apply Run_between; try exact H; try exact X; destruct O as [-> | ->]; try discriminate; exact I.
  Qed.
  Lemma word_true s : In s [lit "true"; lit "false"] -> wordy s.
  Proof. intros [<-|[<-|[]]]; left; eexists; eexists; (split; [reflexivity|]); (split; [reflexivity|]); repeat constructor. Qed.
  Lemma number_digit s : rust_number s -> first_digit s = true.
  Proof. intros H. apply number_first in H as (c & t & -> & H). cbn [first_digit]. unfold digit. clear - H. lia. Qed.
  Lemma field_fieldy e x : field_ok e x = true -> (wordy x \/ first_digit x = true \/ hd_error x = Some 45) -> fieldy xs xc x.
  Proof.
    intros F [W|[D|D]]; [left; exact W| |destruct x as [|c x]; [discriminate D|]; injection D as ->; discriminate F]. right. split; [exact D|]. unfold field_ok in F. apply andb_prop in F as [F _]. destruct x as [|c x]; [discriminate D|]. cbn [first_digit field_name] in *. rewrite D in F. apply orb_prop in F. exact F.
  Qed.
  Lemma atom_run q t : start q -> tlex (TAtom t) -> exists q', Run q [TAtom t] q' /\ stk q' = stk q /\ (fine q' \/ numb q' /\ is_number t = true).
  Proof.
    intros S H.
    assert (X : exists q1, bnd q (show t) q1 /\ (fine q1 \/ numb q1 /\ is_number t = true) /\ stk q1 = stk q).
    { destruct t as [s|s|s|s|p| | | | | | | | | | | | |p a| | | | | | | ]; cbn [tlex show] in *; try contradiction.
      - destruct H as [H|H]; [destruct (b_number xs xc q s S H) as (q1 & B & N1 & K); exists q1; split; [exact B|]; split; [right; split; [exact N1|apply number_digit, H]|exact K]|].
        destruct (b_word xs xc q s S (word_true s H)) as (q1 & B & F & K). exists q1. split; [exact B|]. split; [left; exact F|exact K].
      - destruct (b_string xs xc q s S H) as (q1 & B & F & K). exists q1. split; [exact B|]. split; [left; exact F|exact K].
      - destruct (b_char xs xc q s S H) as (q1 & B & F & K). exists q1. split; [exact B|]. split; [left; exact F|exact K].
      - destruct (b_word xs xc q s S H) as (q1 & B & F & K). exists q1. split; [exact B|]. split; [left; exact F|exact K].
      - destruct (b_path xs xc q p S H) as (q1 & B & F & K). exists q1. split; [exact B|]. split; [left; exact F|exact K].
      - destruct H as [H1 H2]. destruct (b_macro xs xc q p a S H1 H2) as (q1 & B & F & K). exists q1. split; [exact B|]. split; [left; exact F|exact K]. }
    destruct X as (q1 & B & D & K). exists q1. split; [eapply Run_cons; [exact B|reflexivity]|]. split; [exact K|exact D].
  Qed.
  Lemma runs_atom e : spaced e = [TAtom e] -> runs e.
  Proof.
    intros E G L q S _. rewrite E in *. inversion L as [|? ? H _]; subst. destruct (atom_run q e S H) as (q' & R & K & D). exists q'. split; [exact R|]. split; [exact K|].
    destruct D as [D|[D1 D2]]; [left; exact D|right; left; split; [exact D1|right; exact D2]].
  Qed.
  Lemma Run_nil_item q : opened q -> exists q', Run q [] q' /\ stk q' = stk q /\ ender q'.
  Proof. intros [_ F]. exists q. split; [reflexivity|]. split; [reflexivity|left; exact F]. Qed.
  Lemma prefix_run c e q (r : rexpr) : In c [38; 42; 33; 45] -> runs e -> grammatical e -> Forall tlex (spaced e) -> start q ->
    exists q', Run q (TOp [c] :: spaced e) q' /\ stk q' = stk q /\ done e q'.
  Proof.
    intros C H G L S. destruct (b_prefix xs xc q c S C) as (q1 & B & [S1 D1] & K1). destruct (H G L q1 S1) as (q' & R & K & D); [intros X; contradiction|].
    exists q'. split; [eapply Run_cons; [exact B|exact R]|]. split; [congruence|exact D].
  Qed.
  Lemma inv_field e x : grammatical (RField e x) -> field_ok e x = true /\ (11 <= firmness e)%nat /\ grammatical e.
  Proof. intros G. inversion G; subst. repeat split; assumption. Qed.
  Lemma inv_un op e : grammatical (RUn op e) -> In op unary_ops /\ (10 <= firmness e)%nat /\ grammatical e.
  Proof. intros G. inversion G; subst. repeat split; assumption. Qed.
  Lemma inv_bin op l r : grammatical (RBin op l r) -> exists p, In (op, p) precedence /\ (p <= firmness l)%nat /\ (p < firmness r)%nat /\ grammatical l /\ grammatical r.
  Proof. intros G. inversion G; subst. eexists. repeat split; eassumption. Qed.
  Lemma inv_range op l r : grammatical (RRange op l r) -> In op range_ops /\
    (forall e, l = Some e -> (1 <= firmness e)%nat /\ grammatical e) /\ (forall e, r = Some e -> (1 <= firmness e)%nat /\ grammatical e).
  Proof. intros G. inversion G; subst. split; [assumption|]. split; assumption. Qed.
  Lemma precedence_binary op p : In (op, p) precedence -> In op binary_ops /\ (find_prec op precedence < 11)%nat.
  Proof. intros O. cbn in O. repeat (destruct O as [O|O]; [injection O as <- <-; split; [cbn; tauto|vm_compute; lia]|]). contradiction. Qed.
  Theorem expr_runs e : runs e.
  Proof.
    induction e using rexpr_ind'; try (apply runs_atom; reflexivity).
    - apply (runs_between _ OArray (sep_toks comma (map spaced l))); [reflexivity|discriminate|discriminate|]. intros G L. inversion G; subst. apply Run_items. apply list_items; [assumption|assumption|eapply sep_in, L].
    - apply (runs_between _ OGroup (sep_toks [TBlank (lit " ")] (map (fun e => spaced e ++ [TSep]) l))); [reflexivity|discriminate|discriminate|]. intros G L. inversion G; subst.
      replace (map (fun e => spaced e ++ [TSep]) l) with (map (fun ts => ts ++ [TSep]) (map spaced l)) in * by (rewrite map_map; reflexivity). apply Run_elements.
      apply list_items; [assumption|assumption|]. apply sep_in in L. clear - L. induction (map spaced l) as [|x k IH]; [constructor|]. cbn [map] in L. inversion L as [|? ? A B]; subst. apply Forall_app in A as [A _]. constructor; [exact A|apply IH, B].
    - intros G L q S D. apply inv_field in G as (F1 & F2 & F3). cbn [spaced] in *. apply Forall_app in L as [L1 L2]. inversion L2 as [|? ? L3 _]; subst.
      destruct (IHe F3 L1 q S) as (q1 & R1 & K1 & D1); [intros; lia|]. apply done_firm in D1; [|lia].
      destruct (b_field xs xc q1 x) as (q2 & B2 & P2 & K2); [destruct D1 as [D1|[D1 [D2|D2]]]; [left; exact D1|lia|right; split; [exact D1|]]|eapply field_fieldy; [exact F1|exact L3]|].
      + unfold field_ok in F1. rewrite D2, andb_true_r in F1. apply andb_prop in F1 as [_ F1]. destruct (first_digit x); [discriminate F1|reflexivity].
      + exists q2. split; [eapply Run_app; [exact R1|]; eapply Run_cons; [exact B2|reflexivity]|]. split; [congruence|left; exact P2].
    - intros G L q S D. inversion G; subst. cbn [spaced] in *. apply Forall_app in L as [L1 L2]. apply in_between in L2 as [_ L2].
      destruct (IHe1 ltac:(assumption) L1 q S) as (q1 & R1 & K1 & D1); [intros; lia|]. apply done_firm in D1; [|lia].
      destruct (Run_suffix q1 OArray (spaced e2)) as (q2 & R2 & K2 & P2); [right; reflexivity|tauto|apply item_opened, runs_item; assumption|].
      exists q2. split; [eapply Run_app; eassumption|]. split; [congruence|left; exact P2].
    - intros G L q S D. cbn [spaced] in *. inversion L as [|? ? _ L2]; subst.
      assert (G' : grammatical e /\ (firmness e = 0%nat -> firmness (RRef e) = 0%nat)).
      { inversion G; subst; (split; [assumption|]); intros Z; cbn [firmness]; [lia|]. replace (range_first e) with true by (symmetry; assumption). reflexivity. }
      destruct (prefix_run 38 e q e) as (q' & R & K & E); [cbn; tauto|exact IHe|apply G'|exact L2|exact S|]. exists q'. split; [exact R|]. split; [exact K|].
      destruct E as [E|[[E _]|[E1 E2]]]; [left; exact E|right; left; split; [exact E|left; cbn [firmness]; destruct (range_first e); lia]|right; right; split; [apply G', E1|exact E2]].
    - intros G L q S D. cbn [spaced] in *. inversion L as [|? ? _ L2]; subst. inversion G; subst.
      destruct (prefix_run 42 e q e) as (q' & R & K & E); [cbn; tauto|exact IHe|assumption|exact L2|exact S|]. exists q'. split; [exact R|]. split; [exact K|].
      destruct E as [E|[[E _]|[E1 E2]]]; [left; exact E|right; left; split; [exact E|left; cbn [firmness]; lia]|lia].
    - intros G L q S D. cbn [spaced] in *. inversion L as [|? ? _ L2]; subst. apply inv_un in G as (O & F1 & G1).
      assert (X : exists c, o = [c] /\ In c [38; 42; 33; 45]) by (destruct O as [<-|[<-|[]]]; eexists; (split; [reflexivity|cbn; tauto])). destruct X as (c & -> & C).
      destruct (prefix_run c e q e) as (q' & R & K & E); [exact C|exact IHe|exact G1|exact L2|exact S|]. exists q'. split; [exact R|]. split; [exact K|].
      destruct E as [E|[[E _]|[E1 E2]]]; [left; exact E|right; left; split; [exact E|left; cbn [firmness]; lia]|lia].
    - intros G L q S D. apply inv_bin in G as (p & O & F1 & F3 & G1 & G2). pose proof (prec_range _ _ O) as PR. cbn [spaced] in *. apply Forall_app in L as [L1 L2]. inversion L2 as [|? ? _ L3]; subst. inversion L3 as [|? ? _ L4]; subst. inversion L4 as [|? ? _ L5]; subst.
      destruct (IHe1 G1 L1 q S) as (q1 & R1 & K1 & D1); [intros; lia|]. destruct (Run_binary xs xc q1 o) as (q2 & R2 & [S2 N2] & K2); [eapply (ender_pause xs xc), done_ender, D1|eapply precedence_binary, O|].
      destruct (IHe2 G2 L5 q2 S2) as (q3 & R3 & K3 & D3); [intros; lia|]. exists q3. split; [eapply Run_app; [exact R1|]; change (TBlank (lit " ") :: TOp o :: TBlank (lit " ") :: spaced e2) with ([TBlank (lit " "); TOp o; TBlank (lit " ")] ++ spaced e2); eapply Run_app; eassumption|].
      split; [congruence|]. destruct D3 as [D3|[[D3 _]|[D3 _]]]; [left; exact D3|right; left; split; [exact D3|left]|lia]. cbn [firmness].
      eapply precedence_binary, O.
    - intros G L q S D. apply inv_range in G as (O & GL & GR). cbn [spaced] in *. apply Forall_app in L as [L1 L2]. inversion L2 as [|? ? _ L3]; subst.
      assert (A : exists q1, Run q match l with Some l => spaced l | None => [] end q1 /\ stk q1 = stk q /\ (startx q1 \/ fine q1 \/ numb q1)).
      { destruct l as [l|]; cbn [POpt] in *.
        - destruct (GL l eq_refl) as [F G]. destruct (H G L1 q S) as (q1 & R1 & K1 & D1); [intros; exact F|]. apply done_firm in D1; [|exact F]. exists q1. split; [exact R1|]. split; [exact K1|]. tauto.
        - exists q. split; [reflexivity|]. split; [reflexivity|]. left. split; [exact S|]. intros X. specialize (D X). cbn [firmness] in D. lia. }
      destruct A as (q1 & R1 & K1 & D1). destruct (b_range xs xc q1 o O D1) as (q2 & B2 & P2 & S2 & K2).
      destruct r as [r|]; cbn [POpt] in *.
      + destruct (GR r eq_refl) as [F G]. destruct (H0 G L3 q2 S2) as (q3 & R3 & K3 & D3); [intros; exact F|]. exists q3. split; [eapply Run_app; [exact R1|]; eapply Run_cons; [exact B2|exact R3]|]. split; [congruence|].
        destruct D3 as [D3|[[D3 _]|[D3 _]]]; [left; exact D3|right; left; split; [exact D3|left; cbn [firmness]; lia]|lia].
      + exists q2. split; [eapply Run_app; [exact R1|]; eapply Run_cons; [exact B2|reflexivity]|]. split; [congruence|]. right; right. split; [reflexivity|exact P2].
    - apply (runs_between _ OGroup (spaced e)); [reflexivity|discriminate|discriminate|]. intros G L. inversion G; subst. apply item_opened, runs_item; assumption.
    - apply (runs_between _ OCycle (spaced e)); [reflexivity|discriminate|discriminate|]. intros G L. inversion G; subst. apply item_opened, runs_item; assumption.
    - intros G L q S D. inversion G; subst. change (spaced (RCall e l)) with (spaced e ++ ReadSpec.between OGroup (sep_toks comma (map sarg l))) in *. apply Forall_app in L as [L1 L2]. apply in_between in L2 as [_ L2].
      destruct (IHe ltac:(assumption) L1 q S) as (q1 & R1 & K1 & D1); [intros; lia|]. apply done_firm in D1; [|lia].
      destruct (Run_suffix q1 OGroup (sep_toks comma (map sarg l))) as (q2 & R2 & K2 & P2); [left; reflexivity|tauto|apply Run_items, args_items; [assumption|assumption|eapply sep_in, L2]|].
      exists q2. split; [eapply Run_app; eassumption|]. split; [congruence|left; exact P2].
    - apply (runs_between _ OTry (spaced e)); [reflexivity|discriminate|discriminate|]. intros G L. inversion G; subst. apply item_opened, runs_item; assumption.
    - apply (runs_between _ (OFilter b x) (sep_toks comma (map sarg l))); [reflexivity|discriminate|discriminate|]. intros G L. inversion G; subst. apply Run_items, args_items; [assumption|assumption|eapply sep_in, L].
    - apply (runs_between _ (OSafe x) (sarg a)); [reflexivity|discriminate|discriminate|]. intros G L. inversion G; subst. apply item_opened, arg_item; assumption.
    - apply (runs_between _ (OEscape x) (sarg a)); [reflexivity|discriminate|discriminate|]. intros G L. inversion G; subst. apply item_opened, arg_item; assumption.
    - intros G L q S _. inversion G; subst. change (spaced (RFormat x l)) with (ReadSpec.between (OFormat x) (match l with [] => [] | _ => TBlank (lit ", ") :: sep_toks comma (map sarg l) end)) in *. apply in_between in L as [L1 L2]. cbn [olex] in L1.
      assert (B : exists q1, bnd q (opening_text (OFormat x)) q1 /\ fine q1 /\ stk q1 = 41 :: stk q).
      { assert (R0 : exists out, trun (top (stk q) [] (snd (cut q))) (lit "::std::format!(") = Some (top (41 :: stk q) (lit "(") out)) by fixed. destruct R0 as (out & R0).
        assert (R1 : trun (top (41 :: stk q) (lit "(") out) (lit """" ++ x ++ lit """") = Some (top (41 :: stk q) (34 :: x ++ [34]) (out ++ [lit "("]))).
        { change (lit """" ++ x ++ lit """") with (34 :: x ++ [34]). etransitivity; [|exact (t_string xs xc (41 :: stk q) (out ++ [lit "("]) x L1)]. change (lit """" ++ x ++ lit """") with (34 :: x ++ [34]). cbn [TokenSpec.trun].
          rewrite step_between by (try left; reflexivity). rewrite step_between by (try left; reflexivity). unfold step_top. rewrite cont_nil. change (fresh xs (41 :: stk q) 34) with (Some (MStr, 41 :: stk q)). change (space_b 34 && negb (wstart 34)) with false. cbv beta iota.
          change (TokenSpec.cont xs (last out []) (lit "(") 34) with ([lit "("], [34]). cbv beta iota. rewrite app_nil_r. reflexivity. }
        exists (top (41 :: stk q) (34 :: x ++ [34]) (out ++ [lit "("])). split; [|split; [apply inert_fine; [reflexivity|]; eexists; eexists; split; [reflexivity|]; split; reflexivity|]].
        - cbn [opening_text]. change (lit "::std::format!(""" ++ x ++ lit """") with (58 :: (lit ":std::format!(" ++ lit """" ++ x ++ lit """")). apply bnd_go; [apply start_step; [exact S|reflexivity]| |reflexivity].
          change (58 :: (lit ":std::format!(" ++ lit """" ++ x ++ lit """")) with (lit "::std::format!(" ++ (lit """" ++ x ++ lit """")). rewrite trun_app, R0. exact R1.
        - reflexivity. }
      destruct B as (q1 & B1 & F1 & K1).
      assert (A : exists q2, Run q1 (match l with [] => [] | _ => TBlank (lit ", ") :: sep_toks comma (map sarg l) end) q2 /\ stk q2 = stk q1 /\ ender q2).
      { destruct l as [|a l]; [exists q1; split; [reflexivity|]; split; [reflexivity|left; exact F1]|]. inversion L2 as [|? ? _ L3]; subst.
        assert (C : exists q2, bnd q1 (lit ", ") q2 /\ opened q2 /\ stk q2 = stk q1).
        { exists (top (stk q1) [] (snd (cut q1) ++ [lit ","])). split; [|split; [apply comma_opened|reflexivity]]. change (lit ", ") with [44; 32]. apply bnd_go; [apply fine_step; [exact F1|reflexivity]| |reflexivity].
          cbn [TokenSpec.trun]. rewrite (top_first xs xc _ _ 44 (MTop, stk q1)) by reflexivity. rewrite blank_step by reflexivity. reflexivity. }
        destruct C as (q2 & B2 & P2 & K2). destruct (Run_items (map sarg (a :: l))) with (q := q2) as (q3 & R3 & K3 & E3); [apply args_items; [assumption|assumption|apply (sep_in comma), L3]|exact P2|].
        exists q3. split; [eapply Run_cons; [exact B2|exact R3]|]. split; [congruence|exact E3]. }
      destruct A as (q2 & R2 & K2 & E2). destruct (b_close q2 (OFormat x) (stk q)) as (q3 & B3 & F3 & K3); [exact E2|exact L1|discriminate|rewrite K2; exact K1|].
      exists q3. split; [|split; [exact K3|left; exact F3]]. unfold ReadSpec.between. eapply Run_cons; [exact B1|]. eapply Run_app; [exact R2|]. eapply Run_cons; [exact B3|reflexivity].
    - intros G L q S _. inversion G as [| | | | | | | | | | | | | | | | | | | | | | | |k G1|]; subst. cbn [spaced] in *. apply in_between in L as [_ L]. destruct l as [|a l]; [inversion L as [|? ? X _]; subst; exfalso; apply X; reflexivity|].
      inversion G1 as [|? ? Ga Gl]; subst. inversion H as [|? ? Ha Hl]; subst. apply Forall_app in L as [L1 L2]. inversion L2 as [|? ? _ L3]; subst.
      destruct (b_open q OJoin) as (q1 & B1 & P1 & K1); [apply start_opens; [exact S|exact I]|exact I|discriminate|]. destruct (item_opened (spaced a)) with (q := q1) as (q2 & R2 & K2 & E2); [apply runs_item; assumption|exact P1|].
      cbn [brk app] in K1. rewrite K1 in K2.
      assert (B3 : exists q3, bnd q2 (lit ").into_iter()") q3 /\ fine q3 /\ stk q3 = 41 :: stk q).
      { assert (R0 : exists out, trun (top (41 :: 41 :: stk q) [] (snd (cut q2))) (lit ").into_iter()") = Some (top (41 :: stk q) [41] out)) by fixed. destruct R0 as (out & R0). rewrite <- K2 in R0.
        eexists. split; [change (lit ").into_iter()") with (41 :: lit ".into_iter()") in *; apply bnd_go; [apply ender_step; [exact E2|reflexivity]|exact R0|reflexivity]|]. split; [apply inert_top; reflexivity|reflexivity]. }
      destruct B3 as (q3 & B3 & F3 & K3).
      assert (M : forall l, Forall runs l -> Forall grammatical l -> Forall tlex (concat (map (fun e => comma ++ spaced e) l)) -> forall q, ender q -> exists q', Run q (concat (map (fun e => comma ++ spaced e) l)) q' /\ stk q' = stk q /\ ender q').
      { clear. induction 1 as [|e l He _ IH]; intros G L q E; [exists q; split; [reflexivity|split; [reflexivity|exact E]]|]. inversion G; subst. cbn [map concat] in *. apply Forall_app in L as [L1 L2]. apply Forall_app in L1 as [_ L1].
        destruct (Run_comma q E) as (q1 & R1 & P1 & K1). destruct (item_opened (spaced e)) with (q := q1) as (q2 & R2 & K2 & E2); [apply runs_item; assumption|exact P1|]. destruct (IH ltac:(assumption) L2 q2 E2) as (q3 & R3 & K3 & E3).
        exists q3. split; [eapply Run_app; [eapply Run_app; [exact R1|exact R2]|exact R3]|]. split; [congruence|exact E3]. }
      destruct (M l Hl Gl L3 q3) as (q4 & R4 & K4 & E4); [left; exact F3|]. rewrite K3 in K4.
      destruct (b_close q4 (OFilter true (lit "a")) (stk q)) as (q5 & B5 & F5 & K5); [exact E4|cbn [olex]; left; exists 97, []; repeat split; constructor|discriminate|exact K4|].
      exists q5. split; [|split; [exact K5|left; exact F5]]. unfold ReadSpec.between. eapply Run_cons; [exact B1|]. eapply Run_app; [eapply Run_app; [exact R2|eapply Run_cons; [exact B3|exact R4]]|]. eapply Run_cons; [exact B5|reflexivity].
    - apply (runs_between _ (OMarkup x) (spaced e)); [reflexivity|discriminate|discriminate|]. intros G L. inversion G; subst. apply item_opened, runs_item; assumption.
  Qed.
  Theorem expr_tokens e : grammatical e -> Forall tlex (spaced e) -> exists ts, tokens xs xc (show e) = Some ts /\ tokens xs xc (spread (spaced e)) = Some ts.
  Proof.
    intros G L. destruct (expr_runs e G L (top [] [] [])) as (q' & R & K & D); [split; [reflexivity|left; split; [reflexivity|split; [reflexivity|discriminate]]]|intros [_ X]; destruct X as [X|[X|[]]]; discriminate X|].
    destruct (Run_both xs xc _ _ _ R) as [R1 R2]. apply done_ender in D.
    assert (P : ready (md q') = true) by (destruct D as [D|[D|D]]; [apply (fine_ready xs xc)|apply numb_ready|apply dots_ready]; exact D).
    destruct q' as [[[m st] cur] out]. cbn [stk snd fst md] in *. subst st. exists (out ++ flush cur). unfold tokens. rewrite <- (spaced_text e). change (cut (top [] [] [])) with (top (@nil N) (@nil N) (@nil str)) in R2.
    unfold texts. split; [rewrite R1, P; reflexivity|]. rewrite R2. cbn [cut snd ready flush]. rewrite app_nil_r. reflexivity.
  Qed.
End Expr.
