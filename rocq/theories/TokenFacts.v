(** * Facts behind C58: the tokens of a generated expression are where Rust divides its text. *)
From Verif Require Import Base Ws Ast LitSpec RustText TokenSpec ParseSpec TreeSpec Ident IdentFacts GenExpr ReadSpec RexprFacts ReadFacts RustFacts LexFacts.
From Coq Require Import Lia ZArith ZifyBool ZifyNat ZifyN.
Local Open Scope N_scope.
Set Default Proof Using "Type".

(** ** Without the section variables *)
Lemma space_not c : space_b c = true -> c <> 34 /\ c <> 39 /\ c <> 35 /\ c <> 46.
Proof. unfold space_b, between_b. cbn [existsb]. lia. Qed.
Definition firsts : str := [38; 124; 61; 33; 60; 62; 43; 45; 42; 47; 37; 94; 58; 46].
Definition lasts : str := [38; 124; 61; 60; 62; 58; 46].
Lemma compound_shape : forallb (fun s => match s with x :: _ :: _ => existsb (N.eqb x) firsts && existsb (N.eqb (last s 0)) lasts | _ => false end) compound = true.
Proof. vm_compute. reflexivity. Qed.
Lemma compound_inv cur c : mem_str (cur ++ [c]) compound = true -> existsb (N.eqb c) lasts = true /\ exists x t, cur = x :: t /\ existsb (N.eqb x) firsts = true.
Proof.
  intros H. apply mem_str_In in H. pose proof compound_shape as F. rewrite forallb_forall in F. specialize (F _ H). destruct cur as [|x t]; [discriminate F|].
  assert (L : last ((x :: t) ++ [c]) 0 = c) by apply last_last. rewrite L in F. cbn [app] in F.
  assert (E : exists y u, t ++ [c] = y :: u) by (destruct t; eexists; eexists; reflexivity). destruct E as (y & u & E). rewrite E in F.
  apply andb_prop in F as [F1 F2]. split; [exact F2|]. exists x, t. split; [reflexivity|exact F1].
Qed.
Lemma compound_last cur c : existsb (N.eqb c) lasts = false -> mem_str (cur ++ [c]) compound = false.
Proof. intros H. destruct (mem_str _ _) eqn:E; [|reflexivity]. apply compound_inv in E as [E _]. rewrite E in H. discriminate H. Qed.
Lemma compound_first x t c : existsb (N.eqb x) firsts = false -> mem_str ((x :: t) ++ [c]) compound = false.
Proof. intros H. destruct (mem_str _ _) eqn:E; [|reflexivity]. apply compound_inv in E as [_ (y & u & [= <- <-] & E)]. rewrite E in H. discriminate H. Qed.
Lemma flush_cons (x : N) t : flush (x :: t) = [x :: t].
Proof. reflexivity. Qed.
Lemma last_snoc (l : list str) x : last (l ++ [x]) [] = x.
Proof. apply last_last. Qed.

Lemma wstart_not xs c l : word_start xs c = true -> forallb (fun x => (x <? 128) && negb (between_b 65 90 x || between_b 97 122 x || (x =? 95))) l = true -> existsb (N.eqb c) l = false.
Proof.
  intros H F. destruct (existsb (N.eqb c) l) eqn:E; [|reflexivity]. apply existsb_exists in E as (x & Hx & E). rewrite forallb_forall in F. apply F in Hx. apply N.eqb_eq in E. subst x.
  unfold RustText.word_start in H. destruct (xs c); lia.
Qed.
Lemma digit_not c l : digit_b c = true -> forallb (fun x => negb (digit_b x)) l = true -> existsb (N.eqb c) l = false.
Proof.
  intros H F. destruct (existsb (N.eqb c) l) eqn:E; [|reflexivity]. apply existsb_exists in E as (x & Hx & E). rewrite forallb_forall in F. apply F in Hx. apply N.eqb_eq in E. subst x. rewrite H in Hx. discriminate Hx.
Qed.

Section Tok.
  Variables xs xc : N -> bool.
  Notation step := (RustText.step xs xc).
  Notation wchar := (RustText.word_char xs xc).
  Notation wstart := (RustText.word_start xs).
  Notation tstep := (TokenSpec.tstep xs xc).
  Notation trun := (TokenSpec.trun xs xc).
  Notation cont := (TokenSpec.cont xs).
  Notation piece := (RustFacts.piece xs xc).
  Notation blank c := (space_b c && negb (word_start xs c)).
  Definition stk (q : tstate) : list N := snd (fst (fst q)).
  Definition md (q : tstate) : mode := fst (fst (fst q)).
  Definition cut (q : tstate) : tstate := match q with (s, cur, out) => ((MTop, snd s), [], out ++ flush cur) end.
  Lemma trun_app a : forall q b, trun q (a ++ b) = match trun q a with Some q' => trun q' b | None => None end.
  Proof. induction a as [|c a IH]; intros q b; [reflexivity|]. cbn [app TokenSpec.trun]. destruct (tstep q c); [apply IH|reflexivity]. Qed.
  Lemma tstep_step s cur out c s' : step s c = Some s' -> exists cur' out', tstep (s, cur, out) c = Some (s', cur', out').
  Proof.
    intros H. cbn [TokenSpec.tstep]. rewrite H. cbv zeta.
    assert (B : exists cur' out', match fst s' with MLine | MBlock _ _ => (s', [], out)
              | _ => if blank c then (s', [], out ++ flush cur) else let (done, cur') := cont (last out []) cur c in (s', cur', out ++ done) end = (s', cur', out')).
    { destruct (fst s'); try (eexists; eexists; reflexivity); destruct (blank c); try (eexists; eexists; reflexivity); destruct (cont _ _ _); eexists; eexists; reflexivity. }
    destruct B as (cur' & out' & B). rewrite B.
    destruct (fst s); try (eexists; eexists; reflexivity); try (destruct (_ || _); eexists; eexists; reflexivity); destruct (wchar c); eexists; eexists; reflexivity.
  Qed.
  Lemma trun_run a : forall s cur out s', RustText.run xs xc s a = Some s' -> exists cur' out', trun (s, cur, out) a = Some (s', cur', out').
  Proof.
    induction a as [|c a IH]; intros s cur out s'; cbn [RustText.run TokenSpec.trun]; [intros [= <-]; eexists; eexists; reflexivity|].
    destruct (step s c) as [s1|] eqn:E; [|discriminate]. destruct (tstep_step s cur out c s1 E) as (cur1 & out1 & T). rewrite T. apply IH.
  Qed.

  (** ** Where one token ends and the next begins *)
  Lemma fresh_mode st c m st' : fresh xs st c = Some (m, st') -> match m with MLine | MBlock _ _ => False | _ => True end.
  Proof.
    unfold fresh. repeat match goal with |- (if ?b then _ else _) = _ -> _ => destruct b end; try discriminate; try (intros [= <- <-]; exact I).
    destruct (closer c); [intros [= <- <-]; exact I|]. destruct (existsb (N.eqb c) [41; 93; 125]).
    - destruct st as [|d st]; [discriminate|]. destruct (d =? c); [intros [= <- <-]; exact I|discriminate].
    - destruct (existsb (N.eqb c) punctuation); [intros [= <- <-]; exact I|discriminate].
  Qed.
  Definition sepc (c : N) : bool := negb (wchar c) && negb (existsb (N.eqb c) [34; 39; 35]).
  Lemma cont_nil prev c : cont prev [] c = ([], [c]).
  Proof. unfold TokenSpec.cont. cbn [numeric app]. destruct (mem_str [c] compound) eqn:E; [|reflexivity]. apply (compound_inv []) in E as [_ (x & t & E & _)]. discriminate E. Qed.
  (** Between tokens: *)
  Definition step_top (st : list N) (cur : str) (out : list str) (c : N) : option tstate :=
    match fresh xs st c with
    | None => None
    | Some s' => if blank c then Some (s', [], out ++ flush cur) else let (done, cur') := cont (last out []) cur c in Some (s', cur', out ++ done)
    end.
  Lemma step_between m st cur out c : ready m = true -> (m = MTop \/ sepc c = true) -> tstep ((m, st), cur, out) c = step_top st cur out c.
  Proof.
    intros R D. unfold step_top. cbn [TokenSpec.tstep fst].
    assert (E : step (m, st) c = fresh xs st c).
    { destruct D as [->|D]; [reflexivity|]. unfold sepc in D. apply step_ready; [exact R| |]; [destruct (wchar c)|destruct (existsb _ _)]; try reflexivity; try discriminate D.
      rewrite andb_false_r in D. discriminate D. }
    rewrite E. destruct (fresh xs st c) as [[m' st']|] eqn:F; [|reflexivity]. apply fresh_mode in F. cbn [fst]. cbv zeta.
    assert (B : forall A (x y : A), match m' with MLine | MBlock _ _ => x | _ => y end = y) by (intros A x y; destruct m'; try contradiction; reflexivity).
    rewrite !B. destruct D as [->|D].
    - destruct (blank c); [reflexivity|]. destruct (cont _ _ _); reflexivity.
    - unfold sepc in D. cbn [existsb] in D. assert (W : wchar c = false) by (destruct (wchar c); [discriminate D|reflexivity]). rewrite W. replace (c =? 35) with false by lia. cbn [orb].
      destruct m; try discriminate R; (destruct (blank c); [reflexivity|destruct (cont _ _ _); reflexivity]).
  Qed.
  Lemma step_cut q c : ready (md q) = true -> (md q = MTop \/ sepc c = true) ->
    match q with (s, cur, out) => blank c = true \/ cont (last out []) cur c = (flush cur, [c]) end -> tstep q c = tstep (cut q) c.
  Proof.
    destruct q as [[[m st] cur] out]. cbn [md fst cut snd]. intros R D H. rewrite step_between by assumption. rewrite step_between by (try left; reflexivity). unfold step_top.
    destruct (fresh xs st c) as [s'|]; [|reflexivity]. destruct (blank c); [cbn [flush]; rewrite app_nil_r; reflexivity|].
    destruct H as [H|H]; [discriminate H|]. rewrite H, cont_nil, app_nil_r. reflexivity.
  Qed.

  (** ** States in which a token may end *)
  Definition ltok (q : tstate) : str := match q with (_, cur, out) => match cur with [] => last out [] | _ => cur end end.
  (** An operand may begin. *)
  Definition starters : list str := [lit "("; lit "["; lit "{"; lit ","; lit "&"; lit "*"; lit "!"; lit "-"; lit ".."; lit "..="].
  Definition start (q : tstate) : Prop :=
    match q with (s, cur, out) => fst s = MTop /\ (cur = [] /\ ends_operand (last out []) = false /\ last out [] <> lit "." \/ In cur starters /\ (cur = lit "&" -> ends_operand (last out []) = false)) end.
  (** After [..] *)
  Definition dots (q : tstate) : Prop := match q with (s, cur, out) => fst s = MTop /\ In cur range_ops end.
  (** After an operand: whatever follows, other than part of a word *)
  Definition fine (q : tstate) : Prop :=
    match q with (s, cur, out) => ready (fst s) = true /\ forall c, sepc c = true -> blank c = true \/ cont (last out []) cur c = (flush cur, [c]) end.
  (** After a number *)
  Definition numb (q : tstate) : Prop :=
    match q with (s, cur, out) => ready (fst s) = true /\ numeric cur = true /\ existsb (N.eqb (last_char cur)) [46; 43; 45] = false end.
  Definition startc (c : N) : bool := wstart c || digit_b c || existsb (N.eqb c) [34; 39; 40; 91; 123; 38; 42; 33; 45; 58].
  Lemma start_ltok q : start q -> ends_operand (ltok q) = false.
  Proof.
    destruct q as [[s cur] out]. intros [_ [(-> & H & _)|[H _]]]; [exact H|]. cbn [ltok]. repeat (destruct H as [<-|H]; [reflexivity|]). destruct H.
  Qed.
  Lemma starter_not_num cur : In cur starters -> numeric cur = false.
  Proof. intros H. repeat (destruct H as [<-|H]; [reflexivity|]). destruct H. Qed.
  Lemma starter_flush cur : In cur starters -> flush cur = [cur].
  Proof. intros H. repeat (destruct H as [<-|H]; [reflexivity|]). destruct H. Qed.
  Lemma start_step q c : start q -> startc c = true -> tstep q c = tstep (cut q) c.
  Proof.
    destruct q as [[[m st] cur] out]. intros [M H] S. cbn [fst] in M. subst m. apply step_cut; [reflexivity|left; reflexivity|]. right.
    destruct H as [(-> & _ & _)|[H A]]; [apply cont_nil|]. unfold TokenSpec.cont. rewrite (starter_not_num _ H).
    destruct (mem_str (cur ++ [c]) compound) eqn:E; [|reflexivity]. destruct (compound_inv _ _ E) as [L _].
    unfold startc in S. destruct (wstart c) eqn:W; [rewrite (wstart_not xs c lasts W) in L by reflexivity; discriminate L|]. destruct (digit_b c) eqn:D; [rewrite (digit_not c lasts D) in L by reflexivity; discriminate L|].
    cbn [orb existsb] in S. unfold lasts in L. cbn [existsb] in L. assert (C : c = 38 \/ c = 58) by lia. destruct C as [-> | ->].
    - assert (cur = lit "&") as ->; [|rewrite (A eq_refl); reflexivity]. revert E. clear - H. repeat (destruct H as [<-|H]; [intros E; try reflexivity; vm_compute in E; discriminate E|]). destruct H.
    - exfalso. revert E. clear - H. repeat (destruct H as [<-|H]; [intros E; vm_compute in E; discriminate E|]). destruct H.
  Qed.
  Lemma start_dot q : start q -> ~ dots q -> tstep q 46 = tstep (cut q) 46.
  Proof.
    destruct q as [[[m st] cur] out]. intros [M H] D. cbn [fst] in M. subst m. apply step_cut; [reflexivity|left; reflexivity|]. right.
    destruct H as [(-> & _ & _)|[H A]]; [apply cont_nil|]. unfold dots in D. cbn [fst] in D.
    do 8 (destruct H as [<-|H]; [reflexivity|]). exfalso. apply D. split; [reflexivity|]. destruct H as [<-|[<-|[]]]; cbn; tauto.
  Qed.
  Lemma fine_step q c : fine q -> sepc c = true -> tstep q c = tstep (cut q) c.
  Proof. destruct q as [[[m st] cur] out]. intros [R H] S. apply step_cut; [exact R|right; exact S|apply H, S]. Qed.
  Definition follow : str := [41; 93; 125; 44; 32; 91; 40; 63].
  Lemma follow_sep c : existsb (N.eqb c) (46 :: follow) = true -> sepc c = true.
  Proof. intros H. apply existsb_exists in H as (x & Hx & E). apply N.eqb_eq in E. subst x. repeat (destruct Hx as [<-|Hx]; [reflexivity|]). destruct Hx. Qed.
  Lemma num_step q c : numb q -> existsb (N.eqb c) follow = true -> tstep q c = tstep (cut q) c.
  Proof.
    destruct q as [[[m st] cur] out]. intros (R & N1 & N2) S. apply step_cut; [exact R|right; apply follow_sep; cbn [existsb]; rewrite S; apply orb_true_r|]. right.
    unfold TokenSpec.cont. rewrite N1. cbn [existsb] in N2. replace (last_char cur =? 46) with false by lia. cbn [existsb follow] in S. cbn [existsb].
    replace (c =? 46) with false by lia. replace ((c =? 43) || ((c =? 45) || false)) with false by lia. rewrite andb_false_r. replace ((last_char cur =? 43) || ((last_char cur =? 45) || false)) with false by lia.
    destruct cur; [discriminate N1|reflexivity].
  Qed.
  Lemma dots_step q c : dots q -> existsb (N.eqb c) [41; 93; 125; 44; 32] = true -> tstep q c = tstep (cut q) c.
  Proof.
    destruct q as [[[m st] cur] out]. intros [M H] S. cbn [fst] in M. subst m. apply step_cut; [reflexivity|left; reflexivity|]. right.
    unfold TokenSpec.cont. rewrite compound_last by (cbn [existsb] in *; unfold lasts; cbn [existsb]; lia). destruct H as [<-|[<-|[]]]; reflexivity.
  Qed.
  Lemma num_two q d rest : numb q -> d = 46 \/ wstart d = true -> trun q (46 :: d :: rest) = trun (cut q) (46 :: d :: rest).
  Proof.
    destruct q as [[[m st] cur] out]. intros (R & N1 & N2) D. cbn [fst] in R.
    assert (NE : exists x t, cur = x :: t) by (destruct cur; [discriminate N1|eexists; eexists; reflexivity]).
    cbn [existsb] in N2. destruct (whole_number cur && negb (str_eqb (last out []) (lit "."))) eqn:W.
    - cbn [TokenSpec.trun cut fst snd]. rewrite step_between; [|exact R|right; reflexivity]. rewrite step_between by (try left; reflexivity). unfold step_top.
      change (fresh xs st 46) with (Some (MTop, st)). change (blank 46) with false. cbv beta iota. rewrite cont_nil.
      assert (C : cont (last out []) cur 46 = ([], cur ++ [46])).
      { unfold TokenSpec.cont. rewrite N1. replace (last_char cur =? 46) with false by lia. change (46 =? 46) with true. cbn [andb]. rewrite W. reflexivity. }
      rewrite C, !app_nil_r.
      assert (N' : numeric (cur ++ [46]) = true) by (destruct NE as (x & t & ->); exact N1). assert (LC : last_char (cur ++ [46]) = 46) by apply last_last. assert (RL : removelast (cur ++ [46]) = cur) by apply removelast_last.
      rewrite !step_between by (try left; reflexivity). unfold step_top.
      destruct D as [->|D].
      + change (fresh xs st 46) with (Some (MTop, st)). change (blank 46) with false. cbv beta iota. unfold TokenSpec.cont. rewrite N', LC, RL. cbv beta iota. change (46 =? 46) with true. change (digit_b 46) with false. cbv beta iota.
        change (numeric [46]) with false. change (mem_str ([46] ++ [46]) compound) with true. cbv beta iota. change (str_eqb ([46] ++ [46]) (lit "&&")) with false. cbn [andb negb]. destruct NE as (x & t & ->). cbn [flush]. rewrite app_nil_r. reflexivity.
      + rewrite start_fresh by exact D. rewrite D. cbn [negb]. rewrite andb_false_r. unfold TokenSpec.cont. rewrite N', LC, RL, D. change (46 =? 46) with true. cbv beta iota.
        assert (DG : digit_b d = false) by (destruct (digit_b d) eqn:X; [|reflexivity]; clear - D X; unfold RustText.word_start in D; unfold digit_b, between_b in *; destruct (xs d); lia).
        assert (D46 : d =? 46 = false) by (destruct (N.eqb_spec d 46) as [->|]; [discriminate D|reflexivity]). rewrite DG, D46. change (numeric [46]) with false. cbv beta iota.
        rewrite compound_last by (apply (wstart_not xs); [exact D|reflexivity]). cbn [andb flush]. destruct NE as (x & t & ->). cbn [flush]. rewrite <- app_assoc. reflexivity.
    - cbn [TokenSpec.trun]. rewrite step_cut; [reflexivity|exact R|right; reflexivity|]. right. unfold TokenSpec.cont. rewrite N1. replace (last_char cur =? 46) with false by lia.
      change (46 =? 46) with true. cbn [andb]. rewrite W. change (existsb (N.eqb 46) [43; 45]) with false. rewrite andb_false_r. cbn [existsb].
      replace ((last_char cur =? 43) || ((last_char cur =? 45) || false)) with false by lia. destruct NE as (x & t & ->). reflexivity.
  Qed.

  Lemma start_no_point q : start q -> ltok q <> lit ".".
  Proof.
    destruct q as [[s cur] out]. intros [_ [(-> & _ & H)|[H _]]]; [exact H|]. cbn [ltok]. repeat (destruct H as [<-|H]; [discriminate|]). destruct H.
  Qed.
  Lemma last_cut q : last (snd (cut q)) [] = ltok q.
  Proof. destruct q as [[s cur] out]. destruct cur as [|x t]; cbn [cut snd flush ltok]; [rewrite app_nil_r; reflexivity|apply last_snoc]. Qed.
  Lemma cut_shape q : cut q = ((MTop, stk q), [], snd (cut q)).
  Proof. destruct q as [[[m st] cur] out]. reflexivity. Qed.
  Lemma cut_cut q : cut (cut q) = cut q.
  Proof. destruct q as [[[m st] cur] out]. cbn [cut snd flush]. rewrite app_nil_r. reflexivity. Qed.
  Definition pause (q : tstate) : Prop := tstep q 32 = Some (cut q).
  Lemma ready_pause q : ready (md q) = true -> pause q.
  Proof. destruct q as [[[m st] cur] out]. cbn [md fst]. intros R. unfold pause. rewrite step_between; [reflexivity|exact R|right; reflexivity]. Qed.
  Lemma fine_ready q : fine q -> ready (md q) = true.
  Proof. destruct q as [[s cur] out]. intros [R _]. exact R. Qed.
  Lemma numb_ready q : numb q -> ready (md q) = true.
  Proof. destruct q as [[s cur] out]. intros [R _]. exact R. Qed.
  Lemma start_ready q : start q -> ready (md q) = true.
  Proof. destruct q as [[s cur] out]. intros [R _]. unfold md. cbn [fst]. rewrite R. reflexivity. Qed.
  Lemma dots_ready q : dots q -> ready (md q) = true.
  Proof. destruct q as [[s cur] out]. intros [R _]. unfold md. cbn [fst]. rewrite R. reflexivity. Qed.
  (** A text is read the same way whether or not a blank is before it. *)
  Definition bnd (q : tstate) (s : str) (q1 : tstate) : Prop := trun q s = Some q1 /\ trun (cut q) s = Some q1 /\ pause q1.
  Lemma bnd_first q c s q1 : tstep q c = tstep (cut q) c -> trun (cut q) (c :: s) = Some q1 -> pause q1 -> bnd q (c :: s) q1.
  Proof. intros E R P. split; [|split; assumption]. cbn [TokenSpec.trun] in *. rewrite E. exact R. Qed.
  Lemma bnd_blank q : pause q -> bnd q (lit " ") (cut q).
  Proof.
    intros H. assert (C : pause (cut q)) by (apply ready_pause; destruct q as [[[m st] cur] out]; reflexivity).
    split; [|split; [|exact C]]; change (lit " ") with [32]; cbn [TokenSpec.trun]; [rewrite H; reflexivity|]. unfold pause in C. rewrite C, cut_cut. reflexivity.
  Qed.
  Fixpoint Run (q : tstate) (ts : list tok) (q' : tstate) : Prop :=
    match ts with [] => q' = q | t :: ts' => exists q1, bnd q (text t) q1 /\ Run q1 ts' q' end.
  Lemma Run_app a : forall q b q' q'', Run q a q' -> Run q' b q'' -> Run q (a ++ b) q''.
  Proof. induction a as [|t a IH]; intros q b q' q''; cbn [app Run]; [intros ->; exact (fun H => H)|]. intros (q1 & B & R) R'. exists q1. split; [exact B|eapply IH; eassumption]. Qed.
  Lemma Run_cons q t ts q1 q' : bnd q (text t) q1 -> Run q1 ts q' -> Run q (t :: ts) q'.
  Proof. intros H R. exists q1. split; assumption. Qed.
  Definition spread (ts : list tok) : str := concat (map (fun t => text t ++ lit " ") ts).
  Lemma Run_both ts : forall q q', Run q ts q' -> trun q (concat (map text ts)) = Some q' /\ trun (cut q) (spread ts) = Some (cut q').
  Proof.
    induction ts as [|t ts IH]; intros q q'; cbn [Run]; [intros ->; split; reflexivity|]. intros (q1 & (B1 & B2 & B3) & R). destruct (IH _ _ R) as [I1 I2].
    unfold spread in *. cbn [map concat]. rewrite !trun_app, B1, B2. split; [exact I1|]. change (lit " ") with [32]. cbn [TokenSpec.trun]. rewrite B3. exact I2.
  Qed.

  (** ** Words *)
  Definition word (x : str) : Prop := exists c t, x = c :: t /\ wstart c = true /\ Forall (fun c => wchar c = true) t.
  Definition wordy (x : str) : Prop := word x \/ exists y, x = lit "r#" ++ y /\ word y /\ mem_str y not_raw = false.
  Lemma twords t : forall w st cur out, Forall (fun c => wchar c = true) t -> trun ((MWord w, st), cur, out) t = Some ((MWord (w ++ t), st), cur ++ t, out).
  Proof.
    induction t as [|c t IH]; intros w st cur out H; [cbn [TokenSpec.trun]; rewrite !app_nil_r; reflexivity|]. inversion H as [|? ? H1 H2]; subst.
    cbn [TokenSpec.trun TokenSpec.tstep RustText.step fst snd]. rewrite H1. cbn [fst orb]. rewrite IH by exact H2. rewrite <- !app_assoc. reflexivity.
  Qed.
  Lemma traws t : forall w st cur out, Forall (fun c => wchar c = true) t -> trun ((MRaw w, st), cur, out) t = Some ((MRaw (w ++ t), st), cur ++ t, out).
  Proof.
    induction t as [|c t IH]; intros w st cur out H; [cbn [TokenSpec.trun]; rewrite !app_nil_r; reflexivity|]. inversion H as [|? ? H1 H2]; subst.
    cbn [TokenSpec.trun TokenSpec.tstep RustText.step fst snd]. rewrite H1. cbn [fst orb]. rewrite IH by exact H2. rewrite <- !app_assoc. reflexivity.
  Qed.
  (** After punctuation, a word or number begins. *)
  Lemma begin_step st cur out c : numeric cur = false -> wstart c || digit_b c = true -> tstep ((MTop, st), cur, out) c = Some ((MWord [c], st), [c], out ++ flush cur).
  Proof.
    intros Hn H. rewrite step_between by (try left; reflexivity). unfold step_top.
    assert (F : fresh xs st c = Some (MWord [c], st)) by (unfold fresh; rewrite H; reflexivity). rewrite F.
    assert (B : blank c = false).
    { destruct (wstart c) eqn:W; [apply andb_false_r|]. cbn [orb] in H. clear - H. unfold space_b, digit_b, between_b in *. cbn [existsb]. lia. }
    rewrite B. unfold TokenSpec.cont. rewrite Hn, compound_last; [reflexivity|]. destruct (wstart c) eqn:W; [apply (wstart_not xs); [exact W|reflexivity]|]. apply digit_not; [exact H|reflexivity].
  Qed.
  Lemma inert_fine s cur out : ready (fst s) = true -> (exists x t, cur = x :: t /\ digit_b x = false /\ existsb (N.eqb x) firsts = false) -> fine (s, cur, out).
  Proof.
    intros R (x & t & -> & D & F). split; [exact R|]. intros c _. right. unfold TokenSpec.cont. cbn [numeric]. rewrite D, compound_first by exact F. reflexivity.
  Qed.
  Lemma wstart_not_digit c : wstart c = true -> digit_b c = false.
  Proof. clear xc. intros H. destruct (digit_b c) eqn:D; [|reflexivity]. unfold RustText.word_start in H. unfold digit_b, between_b in *. destruct (xs c); lia. Qed.
  Lemma word_run_t st cur out x : numeric cur = false -> wordy x -> exists q, trun ((MTop, st), cur, out) x = Some q /\ fine q /\ stk q = st.
  Proof.
    intros Hn [(c & t & -> & W & T)|(y & -> & (c & t & -> & W & T) & M)].
    - eexists. split; [cbn [TokenSpec.trun]; rewrite begin_step by (try exact Hn; rewrite W; reflexivity); apply twords, T|]. split; [|reflexivity].
      apply inert_fine; [reflexivity|]. exists c, t. split; [reflexivity|]. split; [apply wstart_not_digit, W|apply (wstart_not xs); [exact W|reflexivity]].
    - eexists. split; [change (lit "r#" ++ c :: t) with (114 :: 35 :: c :: t); cbn [TokenSpec.trun]; rewrite begin_step by (try exact Hn; reflexivity)|].
      + cbn [TokenSpec.tstep RustText.step fst snd]. change (wchar 35) with false. change (35 =? 35) with true. change (str_eqb [114] (lit "r")) with true. cbn [andb orb fst app].
        cbn [TokenSpec.trun TokenSpec.tstep RustText.step fst snd]. rewrite W. cbn [fst]. apply traws, T.
      + split; [|reflexivity]. apply inert_fine; [cbn [ready fst]; change ([c] ++ t) with (c :: t); rewrite M; reflexivity|]. exists 114. eexists. split; [reflexivity|]. split; reflexivity.
  Qed.
  Lemma wordy_first x : wordy x -> exists c t, x = c :: t /\ wstart c = true.
  Proof. intros [(c & t & -> & W & _)|(y & -> & _ & _)]; [exists c, t; split; [reflexivity|exact W]|]. eexists; eexists; split; reflexivity. Qed.
  Lemma startc_word c : wstart c = true -> startc c = true.
  Proof. intros H. unfold startc. rewrite H. reflexivity. Qed.
  Lemma b_word q x : start q -> wordy x -> exists q1, bnd q x q1 /\ fine q1 /\ stk q1 = stk q.
  Proof.
    intros S W. destruct (wordy_first x W) as (c & t & -> & H). destruct (word_run_t (stk q) [] (snd (cut q)) (c :: t) eq_refl W) as (q1 & R & F & K). exists q1. split; [|split; assumption].
    apply bnd_first; [apply start_step; [exact S|apply startc_word, H]| |apply ready_pause, fine_ready, F]. rewrite cut_shape. exact R.
  Qed.

  (** ** Numbers *)
  Definition NS (st : list N) (out : list str) (cur : str) : Prop :=
    numeric cur = true /\ wchar (last_char cur) = true /\ exists w, trun ((MTop, st), [], out) cur = Some ((MWord w, st), cur, out).
  Lemma NS_init st out c : digit_b c = true -> NS st out [c].
  Proof.
    intros D. split; [exact D|]. split; [cbn [last_char last]; unfold RustText.word_char; rewrite D, !orb_true_r; reflexivity|]. exists [c]. cbn [TokenSpec.trun].
    rewrite begin_step by (try reflexivity; rewrite D; apply orb_true_r). cbn [flush]. rewrite app_nil_r. reflexivity.
  Qed.
  Lemma numeric_app a b : numeric a = true -> numeric (a ++ b) = true.
  Proof. destruct a; [discriminate|exact (fun H => H)]. Qed.
  Lemma last_char_app a b : b <> [] -> last_char (a ++ b) = last_char b.
  Proof. intros H. unfold last_char. destruct (exists_last H) as (u & y & ->). rewrite app_assoc, !last_last. reflexivity. Qed.
  Lemma last_wchar t : t <> [] -> Forall (fun c => wchar c = true) t -> wchar (last_char t) = true.
  Proof. intros H F. destruct (exists_last H) as (u & y & ->). apply Forall_app in F as [_ F]. inversion F; subst. unfold last_char. rewrite last_last. assumption. Qed.
  Lemma NS_words st out cur t : NS st out cur -> Forall (fun c => wchar c = true) t -> NS st out (cur ++ t).
  Proof.
    intros (N1 & N2 & w & R) F. split; [apply numeric_app, N1|]. split.
    - destruct t as [|c t]; [rewrite app_nil_r; exact N2|]. rewrite last_char_app by discriminate. apply last_wchar; [discriminate|exact F].
    - eexists. rewrite trun_app, R, twords by exact F. reflexivity.
  Qed.
  Lemma wchar_not c : wchar c = true -> existsb (N.eqb c) [46; 43; 45] = false.
  Proof.
    intros H. destruct (existsb (N.eqb c) [46; 43; 45]) eqn:E; [|reflexivity]. cbn [existsb] in E. assert (D : c = 46 \/ c = 43 \/ c = 45) by (clear - E; lia). destruct D as [-> | [-> | ->]]; discriminate H.
  Qed.
  Lemma digit_wchar c : digit_b c = true -> wchar c = true.
  Proof. intros D. unfold RustText.word_char. rewrite D, !orb_true_r. reflexivity. Qed.
  Lemma fresh_word st c : wstart c || digit_b c = true -> fresh xs st c = Some (MWord [c], st).
  Proof. intros H. unfold fresh. rewrite H. reflexivity. Qed.
  Lemma digit_blank c : digit_b c = true -> space_b c = false.
  Proof. clear xs xc. unfold space_b, digit_b, between_b. cbn [existsb]. lia. Qed.
  Lemma NS_point st out cur d : last out [] <> lit "." -> NS st out cur -> whole_number cur = true -> digit_b d = true -> NS st out (cur ++ [46; d]).
  Proof.
    intros L (N1 & N2 & w & R) W D. split; [apply numeric_app, N1|]. split; [rewrite last_char_app by discriminate; apply digit_wchar, D|].
    assert (L' : str_eqb (@last str out []) (lit ".") = false) by (apply str_eqb_neq; exact L). apply wchar_not in N2. cbn [existsb] in N2.
    exists [d]. rewrite trun_app, R. cbn [TokenSpec.trun]. rewrite step_between; [|reflexivity|right; reflexivity]. unfold step_top. change (fresh xs st 46) with (Some (MTop, st)). change (blank 46) with false. cbv beta iota.
    unfold TokenSpec.cont. rewrite N1, W. rewrite L'. replace (last_char cur =? 46) with false by (clear - N2; lia). change (46 =? 46) with true. cbn [andb negb orb]. rewrite app_nil_r.
    rewrite step_between by (try left; reflexivity). unfold step_top. rewrite fresh_word by (rewrite D; apply orb_true_r). rewrite (digit_blank d D). cbn [andb]. unfold TokenSpec.cont.
    rewrite numeric_app by exact N1. rewrite last_char_app by discriminate. change (last_char [46] =? 46) with true. cbv beta iota. rewrite D, app_nil_r, <- app_assoc. reflexivity.
  Qed.
  Lemma NS_sign st out cur c d : NS st out cur -> exponent cur = true -> c = 43 \/ c = 45 -> digit_b d || (d =? 95) = true -> NS st out (cur ++ [c; d]).
  Proof.
    intros (N1 & N2 & w & R) W C D. split; [apply numeric_app, N1|].
    assert (Wd : wstart d || digit_b d = true).
    { clear - D. unfold word_start. destruct (digit_b d); [apply orb_true_r|]. cbn [orb] in D. rewrite D, !orb_true_r. reflexivity. }
    assert (Wc : wchar d = true) by (clear - D; unfold RustText.word_char; destruct (digit_b d); [rewrite !orb_true_r; reflexivity|]; cbn [orb] in D; rewrite D, !orb_true_r; reflexivity).
    split; [rewrite last_char_app by discriminate; exact Wc|].
    apply wchar_not in N2. cbn [existsb] in N2.
    assert (F : fresh xs st c = Some (MTop, st) /\ blank c = false /\ sepc c = true /\ (c =? 46) = false /\ existsb (N.eqb c) [43; 45] = true) by (destruct C as [-> | ->]; repeat split; reflexivity).
    destruct F as (F1 & F2 & F3 & F4 & F5).
    assert (Bd : blank d = false).
    { destruct (wstart d) eqn:Wq; [apply andb_false_r|]. cbn [orb] in Wd. rewrite (digit_blank d Wd). reflexivity. }
    exists [d]. rewrite trun_app, R. cbn [TokenSpec.trun]. rewrite step_between; [|reflexivity|right; exact F3]. unfold step_top. rewrite F1, F2. cbv beta iota.
    unfold TokenSpec.cont. rewrite N1, W, F4, F5. replace (last_char cur =? 46) with false by (clear - N2; lia). cbn [andb orb]. rewrite app_nil_r.
    rewrite step_between by (try left; reflexivity). unfold step_top. rewrite fresh_word by exact Wd. rewrite Bd. unfold TokenSpec.cont.
    rewrite numeric_app by exact N1. rewrite last_char_app by discriminate. change (last_char [c]) with c. rewrite F4, F5, D, orb_true_r. cbv beta iota. rewrite app_nil_r, <- app_assoc. reflexivity.
  Qed.
  Lemma dec_chars c : digit_or_us 10 c -> digit_b c || (c =? 95) = true.
  Proof. clear xs xc. unfold digit_or_us, digit_of, digit_b, between_b. change (N.min 10 10) with 10. lia. Qed.
  Lemma dec_wchar t : Forall (digit_or_us 10) t -> Forall (fun c => wchar c = true) t.
  Proof. intros H. eapply Forall_impl; [|exact H]. intros c Hc. apply dec_chars in Hc. clear - Hc. unfold RustText.word_char. destruct (digit_b c); [rewrite !orb_true_r; reflexivity|]. cbn [orb] in Hc. rewrite Hc, !orb_true_r. reflexivity. Qed.
  Lemma dec_first c : digit_of 10 c -> digit_b c = true.
  Proof. clear xs xc. unfold digit_of, digit_b, between_b. change (N.min 10 10) with 10. lia. Qed.
  Lemma digits_dec t : Forall (digit_or_us 10) t -> digits_b t = true.
  Proof. intros H. apply forallb_forall. rewrite Forall_forall in H. intros c Hc. apply dec_chars, H, Hc. Qed.
  Lemma whole_dec a : dec_literal a -> whole_number a = true.
  Proof.
    intros (c & t & -> & H1 & H2). assert (D : digits_b (c :: t) = true) by (apply digits_dec; constructor; [right; exact H1|exact H2]). revert D. generalize (c :: t) as a. clear. intros a D.
    unfold whole_number. destruct a as [|x a]; [exact D|]. destruct a as [|y u]; [destruct x as [|p]; [exact D|]; repeat (destruct p; try exact D)|].
    assert (Y : existsb (N.eqb y) [98; 111] = false /\ (y =? 120) = false).
    { unfold digits_b in D. cbn [forallb] in D. unfold digit_b, between_b in D. cbn [existsb]. lia. }
    destruct Y as [Y1 Y2]. rewrite Y1, Y2. destruct x as [|p]; [exact D|]. repeat (destruct p; try exact D).
  Qed.
  Lemma NS_dec st out a : dec_literal a -> NS st out a.
  Proof. intros (c & t & -> & H1 & H2). change (c :: t) with ([c] ++ t). apply NS_words; [apply NS_init, dec_first, H1|apply dec_wchar, H2]. Qed.
  Lemma plain_wchar l : forallb plain_chr l = true -> Forall (fun c => wchar c = true) l.
  Proof.
    intros H. apply Forall_forall. intros c Hc. rewrite forallb_forall in H. specialize (H c Hc). clear - H. unfold plain_chr in H. unfold RustText.word_char. rewrite H. reflexivity.
  Qed.
  Lemma suf_wchar l s : forallb (forallb plain_chr) l = true -> In s l -> Forall (fun c => wchar c = true) s.
  Proof. intros H Hs. apply plain_wchar. rewrite forallb_forall in H. apply H, Hs. Qed.
  Lemma exponent_ok a fr e : dec_literal a -> (fr = [] \/ exists b, fr = lit "." ++ b /\ dec_literal b) -> In e [lit "e"; lit "E"] -> exponent (a ++ fr ++ e) = true.
  Proof.
    clear xc. intros A F E. assert (X : exists x, e = [x] /\ existsb (N.eqb x) [69; 101] = true) by (destruct E as [<-|[<-|[]]]; eexists; split; reflexivity). destruct X as (x & -> & X).
    assert (G : forall a, dec_literal a -> forallb (fun c => digit_b c || (c =? 95) || (c =? 46)) a = true).
    { intros b (c & t & -> & H1 & H2). apply forallb_forall. intros y Hy. assert (D : digit_b y || (y =? 95) = true) by (destruct Hy as [<-|Hy]; [rewrite (dec_first c H1); reflexivity|apply dec_chars; rewrite Forall_forall in H2; apply H2, Hy]). rewrite D. reflexivity. }
    unfold exponent. rewrite app_assoc. unfold last_char. rewrite last_last, X, removelast_last, forallb_app, (G a A). destruct F as [->|(b & -> & B)]; [reflexivity|]. rewrite forallb_app, (G b B). reflexivity.
  Qed.
  Lemma NS_number st out s : last out [] <> lit "." -> rust_number s -> NS st out s.
  Proof.
    intros L H. destruct H as [s suf H1 H2|p radix s suf H1 [H2 _] H3|a b suf H1 H2 H3|a fr e sign x suf H1 H2 H3 H4 [H5 H5'] H6].
    - apply NS_words; [apply NS_dec, H1|]. eapply suf_wchar; [|exact H2]. vm_compute. reflexivity.
    - assert (P : exists u, p = 48 :: u /\ forallb plain_chr u = true) by (destruct H1 as [E|[E|[E|[]]]]; injection E as <- <-; eexists; split; reflexivity). destruct P as (u & -> & P).
      change ((48 :: u) ++ s ++ suf) with ([48] ++ (u ++ s ++ suf)). apply NS_words; [apply NS_init; reflexivity|]. apply Forall_app. split; [apply plain_wchar, P|]. apply Forall_app. split.
      + eapply Forall_impl; [|exact H2]. intros c Hc. assert (Q : plain_chr c = true).
        { clear - H1 Hc. destruct H1 as [E|[E|[E|[]]]]; injection E as _ <-; unfold digit_or_us, digit_of in Hc; unfold plain_chr, digit_b, between_b; destruct Hc as [->|Hc]; try reflexivity; lia. }
        clear - Q. unfold plain_chr in Q. unfold RustText.word_char. rewrite Q. reflexivity.
      + eapply suf_wchar; [|exact H3]. vm_compute. reflexivity.
    - pose proof (whole_dec a H1) as W. destruct H2 as (c & t & -> & B1 & B2).
      replace (a ++ lit "." ++ (c :: t) ++ suf) with ((a ++ [46; c]) ++ (t ++ suf)) by (rewrite <- app_assoc; reflexivity).
      apply NS_words; [apply NS_point; [exact L|apply NS_dec, H1|exact W|apply dec_first, B1]|]. apply Forall_app. split; [apply dec_wchar, B2|]. eapply suf_wchar; [|exact H3]. vm_compute. reflexivity.
    - pose proof (exponent_ok a fr e H1 H2 H3) as X.
      assert (A : NS st out (a ++ fr ++ e)).
      { rewrite app_assoc. apply NS_words; [|eapply suf_wchar; [|exact H3]; vm_compute; reflexivity]. destruct H2 as [->|(b & -> & c & t & -> & B1 & B2)]; [rewrite app_nil_r; apply NS_dec, H1|].
        replace (a ++ lit "." ++ c :: t) with ((a ++ [46; c]) ++ t) by (rewrite <- app_assoc; reflexivity).
        apply NS_words; [apply NS_point; [exact L|apply NS_dec, H1|apply whole_dec, H1|apply dec_first, B1]|apply dec_wchar, B2]. }
      assert (S : Forall (fun c => wchar c = true) suf) by (eapply suf_wchar; [|exact H6]; vm_compute; reflexivity).
      assert (Z : a ++ fr ++ e ++ sign ++ x ++ suf = (a ++ fr ++ e) ++ sign ++ x ++ suf) by (rewrite <- !app_assoc; reflexivity). rewrite Z. clear Z.
      destruct H4 as [<-|H4]; [change ([] ++ x ++ suf) with (x ++ suf); apply NS_words; [exact A|]; apply Forall_app; split; [apply dec_wchar, H5|exact S]|].
      assert (G : exists c, sign = [c] /\ (c = 43 \/ c = 45)) by (destruct H4 as [<-|[<-|[]]]; [exists 43|exists 45]; (split; [reflexivity|tauto])). destruct G as (c & -> & G).
      destruct x as [|d x]; [inversion H5'|].
      inversion H5 as [|? ? D1 D2]; subst. replace ((a ++ fr ++ e) ++ [c] ++ (d :: x) ++ suf) with (((a ++ fr ++ e) ++ [c; d]) ++ (x ++ suf)) by (rewrite <- (app_assoc _ [c; d]); reflexivity).
        apply NS_words; [apply NS_sign; [exact A|exact X|exact G|apply dec_chars, D1]|]. apply Forall_app. split; [apply dec_wchar, D2|exact S].
  Qed.

  Lemma b_number q s : start q -> rust_number s -> exists q1, bnd q s q1 /\ numb q1 /\ stk q1 = stk q.
  Proof.
    intros S H. assert (L : last (snd (cut q)) [] <> lit ".") by (rewrite last_cut; apply start_no_point, S).
    destruct (NS_number (stk q) _ s L H) as (N1 & N2 & w & R). destruct s as [|c s]; [discriminate N1|]. exists ((MWord w, stk q), c :: s, snd (cut q)).
    assert (B : numb ((MWord w, stk q), c :: s, snd (cut q))) by (split; [reflexivity|]; split; [exact N1|apply wchar_not, N2]).
    split; [|split; [exact B|reflexivity]]. apply bnd_first; [apply start_step; [exact S|unfold startc; cbn [numeric] in N1; rewrite N1, orb_true_r; reflexivity]| |apply ready_pause, numb_ready, B]. rewrite cut_shape. exact R.
  Qed.

  (** ** Literals *)
  Ltac tst := cbn [TokenSpec.trun TokenSpec.tstep RustText.step fst snd].
  Lemma tuni q t : forall h st cur out, Forall (digit_or_us 16) t -> trun ((MUni q h, st), cur, out) t = Some ((MUni q (h ++ t), st), cur ++ t, out).
  Proof.
    induction t as [|c t IH]; intros h st cur out H; [cbn [TokenSpec.trun]; rewrite !app_nil_r; reflexivity|]. inversion H as [|? ? D F]; subst.
    assert (X : c <> 125 /\ hex_b c || (c =? 95) = true).
    { destruct D as [->|D]; [split; [discriminate|reflexivity]|]. pose proof (hex_b_digit c D) as B. split; [clear - B; unfold hex_b, digit_b, between_b in B; lia|rewrite B; reflexivity]. }
    destruct X as [X1 X2]. tst. assert (X3 : c =? 125 = false) by (apply N.eqb_neq, X1). rewrite X3, X2, IH by exact F. rewrite <- !app_assoc. reflexivity.
  Qed.
  Lemma tescape e q st cur out : rust_escape e -> match e with _ :: e' => trun ((MEsc q, st), cur, out) e' = Some ((after q, st), cur ++ e', out) | [] => False end.
  Proof.
    intros H. destruct H as [c H|a b H1 H2|h t H1 H2 H3 H4 H5]; tst.
    - assert (X : existsb (N.eqb c) [110; 114; 116; 92; 48; 39; 34] = true) by (apply existsb_exists; exists c; split; [exact H|apply N.eqb_refl]).
      rewrite X. reflexivity.
    - change (trun ((MHex1 q, st), cur ++ [120], out) [a; b] = Some ((after q, st), cur ++ [120; a; b], out)). tst. assert (X : between_b 48 55 a = true) by (apply between_spec, H1). rewrite X. tst. rewrite (hex_b_digit b H2). tst. rewrite <- !app_assoc. reflexivity.
    - change (trun ((MUni q [], st), (cur ++ [117]) ++ [123], out) (h :: t ++ [125]) = Some ((after q, st), cur ++ 117 :: 123 :: h :: t ++ [125], out)). change (h :: t ++ [125]) with ((h :: t) ++ [125]). rewrite trun_app, tuni by (constructor; [right; exact H1|exact H2]).
      tst. change (125 =? 125) with true. cbn beta iota.
      assert (C : code_point (h :: t) = true).
      { clear xs xc. unfold code_point, scalar, between_b. assert (X : h <> 95). { destruct (N.eq_dec h 95) as [->|]; [|assumption]. exfalso. apply digit_16 in H1. discriminate H1. }
        apply Nat.leb_le in H3. rewrite H3. replace (h =? 95) with false by lia. generalize dependent (hex_value 0 (h :: t)). intros v V1 V2. lia. }
      change ([] ++ h :: t) with (h :: t). rewrite C. tst. rewrite <- !app_assoc. reflexivity.
  Qed.
  Lemma tstring s : rust_string s -> forall st cur out, trun ((MStr, st), cur, out) s = Some ((MStr, st), cur ++ s, out).
  Proof.
    induction 1 as [|c s H _ IH|s _ IH|s _ IH|e s H _ IH]; intros st cur out; [cbn [TokenSpec.trun]; rewrite app_nil_r; reflexivity| | | |].
    - tst. cbn [In] in H. assert (X : (c =? 34) = false /\ (c =? 92) = false /\ (c =? 13) = false) by (clear - H; lia). destruct X as (-> & -> & ->). rewrite IH, <- app_assoc. reflexivity.
    - change (trun ((MStr, st), (cur ++ [13]) ++ [10], out) s = Some ((MStr, st), cur ++ 13 :: 10 :: s, out)). rewrite IH, <- !app_assoc. reflexivity.
    - match goal with |- trun _ (?a :: ?b :: s) = Some (_, cur ++ ?r, out) => change (trun ((MStr, st), (cur ++ [a]) ++ [b], out) s = Some ((MStr, st), cur ++ a :: b :: s, out)) end. rewrite IH, <- !app_assoc. reflexivity.
    - rewrite trun_app. assert (X : trun ((MStr, st), cur, out) e = Some ((MStr, st), cur ++ e, out)).
      { pose proof (tescape e 34 st (cur ++ [92]) out H) as E. destruct H; (match goal with |- trun _ (92 :: ?r) = _ => change (trun ((MEsc 34, st), cur ++ [92], out) r = Some ((MStr, st), cur ++ 92 :: r, out)) end); (etransitivity; [exact E|]); rewrite <- app_assoc; reflexivity. }
      rewrite X, IH, <- app_assoc. reflexivity.
  Qed.
End Tok.
