(** * The texts of the tokens of a generated expression: each is divided the same way whether or not a blank is before it. *)
From Verif Require Import Base Ws Ast LitSpec RustText TokenSpec ParseSpec TreeSpec Ident IdentFacts GenExpr ReadSpec RexprFacts ReadFacts RustFacts TokenFacts.
From Coq Require Import Lia ZArith ZifyBool ZifyNat ZifyN.
Local Open Scope N_scope.
Set Default Proof Using "Type".

Section Read.
  Variables xs xc : N -> bool.
  Notation wchar := (RustText.word_char xs xc).
  Notation wstart := (RustText.word_start xs).
  Notation tstep := (TokenSpec.tstep xs xc).
  Notation trun := (TokenSpec.trun xs xc).
  Notation cont := (TokenSpec.cont xs).
  Notation piece := (RustFacts.piece xs xc).
  Notation bnd := (TokenFacts.bnd xs xc).
  Notation Run := (TokenFacts.Run xs xc).
  Notation start := TokenFacts.start.
  Notation fine := (TokenFacts.fine xs xc).
  Notation pause := (TokenFacts.pause xs xc).
  Notation wordy := (TokenFacts.wordy xs xc).
  Notation top st cur out := ((MTop, st), cur, out).

  Lemma bnd_go q c s q1 : tstep q c = tstep (cut q) c -> trun (top (stk q) [] (snd (cut q))) (c :: s) = Some q1 -> ready (md q1) = true -> bnd q (c :: s) q1.
  Proof. intros E R P. apply bnd_first; [exact E|rewrite cut_shape; exact R|apply ready_pause, P]. Qed.
  Lemma inert_top st c out : digit_b c = false -> existsb (N.eqb c) firsts = false -> fine (top st [c] out).
  Proof. intros D F. apply inert_fine; [reflexivity|]. exists c, []. split; [reflexivity|]. split; assumption. Qed.

  Lemma top_first st out c s' : fresh xs st c = Some s' -> space_b c && negb (wstart c) = false -> tstep (top st [] out) c = Some (s', [c], out).
  Proof. intros F B. rewrite step_between by (try left; reflexivity). unfold step_top. rewrite F, B, cont_nil, app_nil_r. reflexivity. Qed.

  (** ** Literals *)
  Lemma t_string st out s : rust_string s -> trun (top st [] out) (lit """" ++ s ++ lit """") = Some (top st (34 :: s ++ [34]) out).
  Proof.
    intros H. change (lit """" ++ s ++ lit """") with (34 :: s ++ [34]). cbn [TokenSpec.trun].
    assert (E : tstep (top st [] out) 34 = Some ((MStr, st), [34], out)) by (apply top_first; reflexivity).
    rewrite E, trun_app, tstring by exact H. reflexivity.
  Qed.
  Lemma b_string q s : start q -> rust_string s -> exists q1, bnd q (lit """" ++ s ++ lit """") q1 /\ fine q1 /\ stk q1 = stk q.
  Proof.
    intros S H. exists (top (stk q) (34 :: s ++ [34]) (snd (cut q))). split; [|split; [|reflexivity]].
    - apply bnd_go; [apply start_step; [exact S|apply orb_true_r]|apply t_string, H|reflexivity].
    - apply inert_fine; [reflexivity|]. eexists; eexists; split; [reflexivity|]. split; reflexivity.
  Qed.
  Lemma t_char st out s : rust_char s -> trun (top st [] out) (lit "'" ++ s ++ lit "'") = Some (top st (39 :: s ++ [39]) out).
  Proof.
    intros H. change (lit "'" ++ s ++ lit "'") with (39 :: s ++ [39]). cbn [TokenSpec.trun].
    assert (E : tstep (top st [] out) 39 = Some ((MQuote, st), [39], out)) by (apply top_first; reflexivity).
    rewrite E, trun_app. destruct H as [(c & -> & H)|H].
    - cbn [In] in H. cbn [TokenSpec.trun TokenSpec.tstep RustText.step fst snd]. assert (X : (c =? 92) = false /\ existsb (N.eqb c) [39; 10; 13; 9] = false) by (clear - H; cbn [existsb]; lia). destruct X as (-> & ->). reflexivity.
    - pose proof (tescape xs xc s 39 st [39; 92] out H) as X. assert (Y : trun ((MQuote, st), [39], out) s = Some ((MEnd, st), 39 :: s, out)) by (destruct H; exact X). rewrite Y. reflexivity.
  Qed.
  Lemma b_char q s : start q -> rust_char s -> exists q1, bnd q (lit "'" ++ s ++ lit "'") q1 /\ fine q1 /\ stk q1 = stk q.
  Proof.
    intros S H. exists (top (stk q) (39 :: s ++ [39]) (snd (cut q))). split; [|split; [|reflexivity]].
    - apply bnd_go; [apply start_step; [exact S|apply orb_true_r]|apply t_char, H|reflexivity].
    - apply inert_fine; [reflexivity|]. eexists; eexists; split; [reflexivity|]. split; reflexivity.
  Qed.

  (** ** Paths *)
  Lemma cut_run q c s : tstep q c = tstep (cut q) c -> trun q (c :: s) = trun (top (stk q) [] (snd (cut q))) (c :: s).
  Proof. intros E. cbn [TokenSpec.trun]. rewrite E, cut_shape. reflexivity. Qed.
  Lemma colons st out s : trun (top st [] out) (lit "::" ++ s) = trun (top st (lit "::") out) s.
  Proof.
    change (lit "::" ++ s) with (58 :: 58 :: s). cbn [TokenSpec.trun]. rewrite (top_first st out 58 (MTop, st)) by reflexivity. rewrite step_between by (try left; reflexivity). unfold step_top.
    change (fresh xs st 58) with (Some (MTop, st)). change (space_b 58 && negb (wstart 58)) with false. cbv beta iota.
    change (cont (last out []) [58] 58) with (@nil str, lit "::"). cbv beta iota. rewrite app_nil_r. reflexivity.
  Qed.
  Lemma path_run l : Forall wordy l -> l <> [] -> forall st cur out, numeric cur = false -> exists q, trun (top st cur out) (join_with (lit "::") l) = Some q /\ fine q /\ stk q = st.
  Proof.
    induction 1 as [|x l Hx Hl IH]; intros NE st cur out Hn; [contradiction|]. destruct (word_run_t xs xc st cur out x Hn Hx) as (q & R & F & K).
    destruct l as [|y l]; [exists q; split; [exact R|split; assumption]|]. change (join_with (lit "::") (x :: y :: l)) with (x ++ lit "::" ++ join_with (lit "::") (y :: l)).
    destruct (IH ltac:(discriminate) st (lit "::") (snd (cut q)) eq_refl) as (q' & R' & F' & K'). exists q'. split; [|split; assumption].
    rewrite trun_app, R. change (lit "::" ++ join_with (lit "::") (y :: l)) with (58 :: (lit ":" ++ join_with (lit "::") (y :: l))). rewrite cut_run by (apply fine_step; [exact F|reflexivity]).
    change (58 :: (lit ":" ++ join_with (lit "::") (y :: l))) with (lit "::" ++ join_with (lit "::") (y :: l)). rewrite colons, K. exact R'.
  Qed.
  Definition wpath (p : list str) : Prop := exists l, Forall wordy l /\ l <> [] /\ (p = l \/ p = [] :: l).
  Lemma wpath_run p st out : wpath p -> exists q, trun (top st [] out) (join_with (lit "::") p) = Some q /\ fine q /\ stk q = st.
  Proof.
    intros (l & F & NE & [->| ->]); [apply path_run; try assumption; reflexivity|]. destruct l as [|x l]; [contradiction|].
    change (join_with (lit "::") ([] :: x :: l)) with (lit "::" ++ join_with (lit "::") (x :: l)). rewrite colons. apply path_run; try assumption; reflexivity.
  Qed.
  Lemma wpath_first p : wpath p -> exists c t, join_with (lit "::") p = c :: t /\ startc xs c = true.
  Proof.
    intros (l & F & NE & [->| ->]); (destruct l as [|x l]; [contradiction|]).
    - inversion F as [|? ? W _]; subst. apply wordy_first in W as (c & t & -> & W). destruct l; (eexists; eexists; split; [reflexivity|apply startc_word, W]).
    - eexists; eexists; split; [reflexivity|apply orb_true_r].
  Qed.
  Lemma b_path q p : start q -> wpath p -> exists q1, bnd q (join_with (lit "::") p) q1 /\ fine q1 /\ stk q1 = stk q.
  Proof.
    intros S W. destruct (wpath_first p W) as (c & t & E & C). destruct (wpath_run p (stk q) (snd (cut q)) W) as (q1 & R & F & K). exists q1. split; [|split; assumption].
    rewrite E in *. apply bnd_go; [apply start_step; assumption|exact R|apply (fine_ready xs xc), F].
  Qed.

  (** ** Whatever text, then punctuation *)
  Lemma cont_any prev cur c : existsb (N.eqb c) [40; 41; 44] = true -> exists done, cont prev cur c = (done, [c]).
  Proof.
    intros H. cbn [existsb] in H. unfold TokenSpec.cont. assert (D : digit_b c = false /\ wstart c = false /\ (c =? 46) = false /\ existsb (N.eqb c) [43; 45] = false /\ (c =? 95) = false /\ existsb (N.eqb c) lasts = false).
    { assert (X : c = 40 \/ c = 41 \/ c = 44) by (clear - H; lia). destruct X as [-> | [-> | ->]]; repeat split; reflexivity. }
    destruct D as (-> & -> & -> & -> & -> & D). cbn [andb orb]. rewrite !andb_false_r. cbn [orb]. rewrite (compound_last cur c D). cbn [andb]. destruct (numeric cur), (last_char cur =? 46); eexists; reflexivity.
  Qed.
  Lemma ready_step m st cur out c : ready m = true -> existsb (N.eqb c) [40; 44] = true -> exists out', tstep ((m, st), cur, out) c = Some (top (if c =? 40 then 41 :: st else st) [c] out').
  Proof.
    intros R H. cbn [existsb] in H. assert (X : c = 40 \/ c = 44) by (clear - H; lia). rewrite step_between; [|exact R|right; destruct X as [-> | ->]; reflexivity]. unfold step_top.
    assert (F : fresh xs st c = Some (MTop, if c =? 40 then 41 :: st else st) /\ space_b c && negb (wstart c) = false) by (destruct X as [-> | ->]; split; reflexivity). destruct F as [-> ->].
    destruct (cont_any (last out []) cur c) as (done & ->); [cbn [existsb]; clear - X; lia|]. eexists; reflexivity.
  Qed.
  Lemma ready_close m st cur out : ready m = true -> exists out', tstep ((m, 41 :: st), cur, out) 41 = Some (top st [41] out').
  Proof.
    intros R. rewrite step_between; [|exact R|right; reflexivity]. unfold step_top. change (fresh xs (41 :: st) 41) with (Some (MTop, st)). change (space_b 41 && negb (wstart 41)) with false.
    destruct (cont_any (last out []) cur 41 eq_refl) as (done & ->). eexists; reflexivity.
  Qed.
  Lemma piece_run a st out : piece a -> exists m cur' out', trun (top st [] out) a = Some ((m, st), cur', out') /\ ready m = true.
  Proof. intros H. destruct (H st) as (m & R & Y). destruct (trun_run xs xc a _ [] out _ R) as (cur' & out' & T). exists m, cur', out'. split; assumption. Qed.
  Lemma piece_run_cur a st cur out : piece a -> exists m cur' out', trun (top st cur out) a = Some ((m, st), cur', out') /\ ready m = true.
  Proof. intros H. destruct (H st) as (m & R & Y). destruct (trun_run xs xc a _ cur out _ R) as (cur' & out' & T). exists m, cur', out'. split; assumption. Qed.
  Lemma b_macro q p a : start q -> wpath p -> piece a -> exists q1, bnd q (join_with (lit "::") p ++ lit "!(" ++ a ++ lit ")") q1 /\ fine q1 /\ stk q1 = stk q.
  Proof.
    intros S W P. destruct (wpath_first p W) as (c & t & E & C). destruct (wpath_run p (stk q) (snd (cut q)) W) as (q1 & R & F & K).
    assert (X : exists out', trun q1 (lit "!(") = Some (top (41 :: stk q1) (lit "(") out')).
    { change (lit "!(") with [33; 40]. rewrite cut_run by (apply fine_step; [exact F|reflexivity]). eexists. cbn [TokenSpec.trun]. rewrite (top_first _ _ 33 (MTop, stk q1)) by reflexivity.
      rewrite step_between by (try left; reflexivity). reflexivity. }
    destruct X as (out1 & X). destruct (piece_run_cur a (41 :: stk q1) (lit "(") out1 P) as (m & cur' & out' & Y & M). destruct (ready_close m (stk q1) cur' out' M) as (out2 & Z).
    exists (top (stk q) [41] out2). split; [|split; [apply inert_top; reflexivity|reflexivity]].
    rewrite E in *. change ((c :: t) ++ lit "!(" ++ a ++ lit ")") with (c :: (t ++ lit "!(" ++ a ++ lit ")")). apply bnd_go; [apply start_step; assumption| |reflexivity].
    change (c :: (t ++ lit "!(" ++ a ++ lit ")")) with ((c :: t) ++ lit "!(" ++ a ++ lit ")"). rewrite trun_app, R, trun_app, X, trun_app, Y. change (lit ")") with [41]. cbn [TokenSpec.trun]. rewrite Z, K. reflexivity.
  Qed.

  (** ** Fields *)
  Lemma point_first st out x : trun (top st [] out) (lit "." ++ x) = trun (top st (lit ".") out) x.
  Proof. change (lit "." ++ x) with (46 :: x). cbn [TokenSpec.trun]. rewrite (top_first st out 46 (MTop, st)) by reflexivity. reflexivity. Qed.
  Lemma digits_run t : forall w st cur out, forallb digit_b t = true -> trun ((MWord w, st), cur, out) t = Some ((MWord (w ++ t), st), cur ++ t, out).
  Proof.
    intros w st cur out H. apply twords. apply Forall_forall. intros c Hc. rewrite forallb_forall in H. apply digit_wchar, H, Hc.
  Qed.
  Lemma decimal_run st out x : decimal x = true -> exists w, trun (top st (lit ".") out) x = Some ((MWord w, st), x, out ++ [lit "."]).
  Proof.
    intros H. destruct x as [|c t]; [discriminate H|]. cbn [decimal forallb] in H. apply andb_prop in H as [D T]. eexists. cbn [TokenSpec.trun].
    rewrite begin_step; [|reflexivity|change (digit_b c) with (digit c); rewrite D; apply orb_true_r]. apply (digits_run t [c]). exact T.
  Qed.
  Lemma index_fine s out x : ready (fst s) = true -> decimal x = true -> fine (s, x, out ++ [lit "."]).
  Proof.
    intros R H. split; [exact R|]. intros c C. right. destruct x as [|d t]; [discriminate H|]. unfold TokenSpec.cont. cbn [decimal] in H.
    assert (L : digit (last_char (d :: t)) = true).
    { rewrite forallb_forall in H. apply H. unfold last_char. destruct (exists_last (l := d :: t) ltac:(discriminate)) as (u & y & ->). rewrite last_last. apply in_or_app. right. left. reflexivity. }
    cbn [numeric]. cbn [forallb] in H. apply andb_prop in H as [D _]. change (digit_b d) with (digit d). rewrite D. rewrite last_snoc. change (str_eqb (lit ".") (lit ".")) with true. cbn [negb]. rewrite andb_false_r. cbn [orb].
    unfold exponent. revert L. generalize (last_char (d :: t)). intros l L. unfold digit in L. assert (X : (l =? 46) = false /\ existsb (N.eqb l) [69; 101] = false /\ existsb (N.eqb l) [43; 45] = false) by (clear - L; cbn [existsb]; lia).
    destruct X as (-> & -> & ->). reflexivity.
  Qed.
  Lemma two_run x : two_decimals x = true -> forall w st cur out, numeric cur = true -> digit_b (last_char cur) = true -> forallb digit_b cur = true ->
    exists a b w', a ++ lit "." ++ b = x /\ decimal b = true /\ forallb digit_b a = true /\ trun ((MWord w, st), cur, out ++ [lit "."]) x = Some ((MWord w', st), b, ((out ++ [lit "."]) ++ [cur ++ a]) ++ [lit "."]).
  Proof.
    induction x as [|c x IH]; intros H w st cur out N1 L A; [discriminate H|]. cbn [two_decimals] in H. destruct (c =? 46) eqn:E.
    - apply N.eqb_eq in E. subst c. destruct (decimal_run st ((out ++ [lit "."]) ++ [cur]) x H) as (w' & R). exists [], x, w'. split; [reflexivity|]. split; [exact H|]. split; [reflexivity|]. rewrite app_nil_r.
      cbn [TokenSpec.trun]. rewrite step_between; [|reflexivity|right; reflexivity]. unfold step_top. change (fresh xs st 46) with (Some (MTop, st)). change (space_b 46 && negb (wstart 46)) with false. cbv beta iota.
      rewrite last_snoc. unfold TokenSpec.cont. rewrite N1. change (str_eqb (lit ".") (lit ".")) with true. cbn [negb]. rewrite andb_false_r. cbn [orb]. unfold exponent. revert L. generalize (last_char cur). intros l L.
      unfold digit_b, between_b in L. assert (X : (l =? 46) = false /\ existsb (N.eqb l) [69; 101] = false /\ existsb (N.eqb l) [43; 45] = false) by (clear - L; cbn [existsb]; lia). destruct X as (-> & -> & ->). exact R.
    - apply andb_prop in H as [D T]. change (digit c) with (digit_b c) in D. destruct (IH T (w ++ [c]) st (cur ++ [c]) out) as (a & b & w' & E1 & E2 & E3 & R); [apply numeric_app, N1|rewrite last_char_app by discriminate; exact D|rewrite forallb_app, A; cbn [forallb]; rewrite D; reflexivity|].
      exists (c :: a), b, w'. split; [rewrite <- E1; reflexivity|]. split; [exact E2|]. split; [cbn [forallb]; rewrite D; exact E3|]. cbn [TokenSpec.trun TokenSpec.tstep RustText.step fst snd]. rewrite (digit_wchar xs xc c D). cbn [fst orb]. etransitivity; [exact R|]. rewrite <- (app_assoc cur). reflexivity.
  Qed.
  Definition fieldy (x : str) : Prop := wordy x \/ first_digit x = true /\ (decimal x = true \/ two_decimals x = true).
  Lemma field_run st out x : fieldy x -> exists q, trun (top st [] out) (lit "." ++ x) = Some q /\ fine q /\ stk q = st.
  Proof.
    rewrite point_first. intros [H|[F [H|H]]].
    - apply word_run_t; [reflexivity|exact H].
    - destruct (decimal_run st out x H) as (w & R). eexists. split; [exact R|]. split; [apply index_fine; [reflexivity|exact H]|reflexivity].
    - destruct x as [|c x]; [discriminate H|]. cbn [first_digit] in F. change (digit c) with (digit_b c) in F. cbn [two_decimals] in H.
      assert (E : (c =? 46) = false) by (clear - F; unfold digit_b, between_b in F; lia). rewrite E in H. apply andb_prop in H as [_ H].
      destruct (two_run x H [c] st [c] out F F) as (a & b & w' & _ & B & _ & R); [cbn [forallb]; rewrite F; reflexivity|]. exists ((MWord w', st), b, ((out ++ [lit "."]) ++ [[c] ++ a]) ++ [lit "."]). split; [|split; [apply index_fine; [reflexivity|exact B]|reflexivity]].
      cbn [TokenSpec.trun]. rewrite begin_step; [|reflexivity|rewrite F; apply orb_true_r]. exact R.
  Qed.
  Lemma b_field q x : (fine q \/ numb q /\ first_digit x = false) -> fieldy x -> exists q1, bnd q (lit "." ++ x) q1 /\ fine q1 /\ stk q1 = stk q.
  Proof.
    intros S W. destruct (field_run (stk q) (snd (cut q)) x W) as (q1 & R & F & K). exists q1. split; [|split; assumption]. destruct S as [S|[S N1]].
    - change (lit "." ++ x) with (46 :: x) in *. apply bnd_go; [apply fine_step; [exact S|reflexivity]|exact R|apply (fine_ready xs xc), F].
    - destruct W as [W|[W _]]; [|rewrite W in N1; discriminate N1]. apply wordy_first in W as (c & t & -> & W). change (lit "." ++ c :: t) with (46 :: c :: t) in *.
      split; [|split; [|apply ready_pause, (fine_ready xs xc), F]]; [rewrite num_two by (try exact S; right; exact W)|]; rewrite cut_shape; exact R.
  Qed.

  (** ** Operators *)
  Definition startx (q : tstate) : Prop := start q /\ ~ dots q.
  Lemma not_dots s cur out : ~ In cur range_ops -> ~ dots (s, cur, out).
  Proof. intros H [_ D]. exact (H D). Qed.
  Lemma b_prefix q c : start q -> In c [38; 42; 33; 45] -> exists q1, bnd q [c] q1 /\ startx q1 /\ stk q1 = stk q.
  Proof.
    intros S H. exists (top (stk q) [c] (snd (cut q))). split; [|split; [|reflexivity]].
    - apply bnd_go; [apply start_step; [exact S|repeat (destruct H as [<-|H]; [apply orb_true_r|]); destruct H]| |reflexivity]. cbn [TokenSpec.trun]. rewrite (top_first (stk q) _ c (MTop, stk q)); [reflexivity| |]; repeat (destruct H as [<-|H]; [reflexivity|]); destruct H.
    - split; [|apply not_dots; repeat (destruct H as [<-|H]; [intros [X|[X|[]]]; discriminate X|]); destruct H]. split; [reflexivity|]. right. split; [repeat (destruct H as [<-|H]; [cbn; tauto|]); destruct H|].
      intros _. rewrite last_cut. apply start_ltok, S.
  Qed.
  Lemma b_range q op : In op range_ops -> (startx q \/ fine q \/ numb q) -> exists q1, bnd q op q1 /\ dots q1 /\ start q1 /\ stk q1 = stk q.
  Proof.
    intros O S. exists (top (stk q) op (snd (cut q))).
    assert (R : trun (top (stk q) [] (snd (cut q))) op = Some (top (stk q) op (snd (cut q)))).
    { assert (Y : forall st out, trun (top st [] out) (lit "..") = Some (top st (lit "..") out)).
      { intros st out. change (lit "..") with [46; 46]. cbn [TokenSpec.trun]. rewrite (top_first st out 46 (MTop, st)) by reflexivity. rewrite step_between by (try left; reflexivity). unfold step_top.
        change (fresh xs st 46) with (Some (MTop, st)). change (space_b 46 && negb (wstart 46)) with false. change (cont (last out []) [46] 46) with (@nil str, [46; 46]). cbv beta iota. rewrite app_nil_r. reflexivity. }
      destruct O as [<-|[<-|[]]]; [|apply Y]. change (lit "..=") with (lit ".." ++ [61]). rewrite trun_app, Y. cbn [TokenSpec.trun]. rewrite step_between by (try left; reflexivity). unfold step_top.
      change (fresh xs (stk q) 61) with (Some (MTop, stk q)). change (space_b 61 && negb (wstart 61)) with false. change (cont (last (snd (cut q)) []) (lit "..") 61) with (@nil str, lit "..="). cbv beta iota. rewrite app_nil_r. reflexivity. }
    assert (D : dots (top (stk q) op (snd (cut q)))) by (split; [reflexivity|exact O]).
    assert (B : start (top (stk q) op (snd (cut q)))).
    { split; [reflexivity|]. right. split; [destruct O as [<-|[<-|[]]]; cbn; tauto|]. destruct O as [<-|[<-|[]]]; discriminate. }
    split; [|split; [exact D|split; [exact B|reflexivity]]].
    assert (F : exists t, op = 46 :: 46 :: t) by (destruct O as [<-|[<-|[]]]; eexists; reflexivity). destruct F as (t & ->).
    destruct S as [[S S']|[S|S]]; [apply bnd_go; [apply start_dot; assumption|exact R|reflexivity]|apply bnd_go; [apply fine_step; [exact S|reflexivity]|exact R|reflexivity]|].
    split; [|split; [|apply ready_pause; reflexivity]]; [rewrite num_two by (try exact S; left; reflexivity)|]; rewrite cut_shape; exact R.
  Qed.
  Lemma slash_pause st cur out : pause ((MSlash, st), cur, out).
  Proof. reflexivity. Qed.
  Lemma binary_run op st out : In op binary_ops -> exists q, trun (top st [] out) op = Some q /\ pause q /\ stk q = st /\ ends_operand (ltok q) = false /\ ltok q <> lit ".".
  Proof.
    intros H. destruct H as [<-|[<-|H]].
    - eexists. split; [vm_compute; reflexivity|]. split; [reflexivity|]. split; [reflexivity|]. split; [reflexivity|discriminate].
    - change (lit "&&") with [38; 38]. cbn [TokenSpec.trun]. rewrite (top_first st out 38 (MTop, st)) by reflexivity. rewrite step_between by (try left; reflexivity). unfold step_top.
      change (fresh xs st 38) with (Some (MTop, st)). change (space_b 38 && negb (wstart 38)) with false. cbv beta iota. unfold TokenSpec.cont. change (numeric [38]) with false. change (mem_str ([38] ++ [38]) compound) with true.
      change (str_eqb ([38] ++ [38]) (lit "&&")) with true. cbn [andb]. destruct (ends_operand (last out [])); cbn [negb]; (eexists; split; [reflexivity|]; split; [reflexivity|]; split; [reflexivity|]; split; [reflexivity|discriminate]).
    - repeat (destruct H as [<-|H]; [eexists; (split; [vm_compute; reflexivity|]); (split; [reflexivity|]); (split; [reflexivity|]); (split; [reflexivity|discriminate])|]). destruct H.
  Qed.
  Lemma start_cut q : ends_operand (ltok q) = false -> ltok q <> lit "." -> startx (cut q).
  Proof.
    intros E L. rewrite cut_shape. split; [|apply not_dots; intros [X|[X|[]]]; discriminate X]. split; [reflexivity|]. left. split; [reflexivity|]. rewrite last_cut. split; assumption.
  Qed.
  (** An operator between blanks *)
  Lemma Run_binary q op : pause q -> In op binary_ops -> exists q', Run q [TBlank (lit " "); TOp op; TBlank (lit " ")] q' /\ startx q' /\ stk q' = stk q.
  Proof.
    intros P H. destruct (binary_run op (stk q) (snd (cut q)) H) as (q1 & R & P1 & K & E1 & E2). exists (cut q1). split; [|split; [apply start_cut; assumption|rewrite <- K; destruct q1 as [[[m st] cur] out]; reflexivity]].
    eapply Run_cons; [apply bnd_blank, P|]. eapply Run_cons; [|eapply Run_cons; [apply bnd_blank, P1|reflexivity]]. cbn [text]. split; [|split; [|exact P1]]; [|rewrite cut_cut]; rewrite cut_shape; exact R.
  Qed.

  (** ** Where an operand has ended *)
  Definition ender (q : tstate) : Prop := fine q \/ numb q \/ dots q.
  Lemma ender_step q c : ender q -> existsb (N.eqb c) [41; 93; 125; 44; 32] = true -> tstep q c = tstep (cut q) c.
  Proof.
    intros [H|[H|H]] C.
    - apply fine_step; [exact H|]. apply follow_sep. cbn [existsb] in *. unfold follow. cbn [existsb]. clear - C. lia.
    - apply num_step; [exact H|]. unfold follow. cbn [existsb] in *. clear - C. lia.
    - apply dots_step; assumption.
  Qed.
  Lemma ender_pause q : ender q -> pause q.
  Proof. intros [H|[H|H]]; apply ready_pause; [apply (fine_ready xs xc)|apply numb_ready|apply dots_ready]; exact H. Qed.
End Read.
