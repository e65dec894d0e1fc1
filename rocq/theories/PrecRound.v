(** * Written expressions are read back: lists, brackets and the induction. *)
From Verif Require Import Base Config ConfigFacts Nom Ws Ast Lex ParseExpr NomFacts LexFacts LitSpec LitFacts ParseSpec TreeSpec ExprFacts WsFacts TextFacts PrecSpec LitComplete SimExpr PrecFacts.
From Coq Require Import Lia ZArith ZifyBool ZifyNat ZifyN.
Local Open Scope N_scope.

Set Default Proof Using "Type".
Section Round.
  Variable lc : N -> bool.
  Notation pe := (pe lc).
  Notation lp := (lp lc).
  Notation good := (good lc).
  Notation good0 := (good0 lc).
  Notation sp := (sp lc).
  Notation canon := (canon lc).

  Lemma canon_all l : (fix all l := match l with [] => True | e :: l' => canon 0 e /\ all l' end) l <-> Forall (canon 0) l.
  Proof. induction l as [|e l IH]; split; auto; [intros [H1 H2]; constructor; tauto|]. inversion 1; tauto. Qed.
  Lemma first_mono j k c : (k <= j)%nat -> first j c -> first k c.
  Proof. clear lc. unfold first. intros L [H|[H|[H|[[H K]|[H K]]]]]; auto; [right; right; right; left; split; auto; lia|]. right; right; right; right. split; auto; lia. Qed.
  Lemma canon_hd e : forall k, canon k e -> exists c t, text e = c :: t /\ first k c.
  Proof.
    assert (Q : forall k (c : N) t s, c :: t = s -> In c [34; 39; 58; 91; 40] -> exists c t, s = c :: t /\ first k c).
    { intros k c t s <- H. exists c, t. split; auto. unfold first. tauto. }
    induction e using expr_ind'; intros k; cbn [PrecSpec.canon text]; try (intros []; fail).
    - intros (_ & [->| ->] & _); do 2 eexists; (split; [reflexivity|left; reflexivity]).
    - intros (_ & H). destruct (rust_number_hd s H) as (c & t & -> & Hc). exists c, t. unfold first. auto.
    - intros _. eapply Q; [reflexivity|cbn; tauto].
    - intros _. eapply Q; [reflexivity|cbn; tauto].
    - intros (_ & H & _). destruct (ident_hd s H) as (c & t & -> & Hc). exists c, t. unfold first. auto.
    - intros (_ & H & _). destruct (path_hd l [] H) as (c & t & E & Hc). rewrite app_nil_r in E. rewrite E. exists c, t. split; auto. unfold first.
      destruct Hc as [Hc| ->]; auto. right; right; left. cbn; tauto.
    - intros _. eapply Q; [reflexivity|cbn; tauto].
    - intros (L & H & _). destruct (IHe _ H) as (c & t & -> & Hc). cbn [app]. do 2 eexists. split; [reflexivity|eapply first_mono; eauto].
    - intros (L & H & _). destruct (IHe1 _ H) as (c & t & -> & Hc). cbn [app]. do 2 eexists. split; [reflexivity|eapply first_mono; eauto].
    - destruct l as [|o args]; [intros (_ & _ & [])|]. inversion H as [|? ? H1 _]; subst. intros (L & _ & K & _). destruct (H1 _ K) as (c & t & -> & Hc). cbn [app].
      do 2 eexists. split; [reflexivity|eapply first_mono; eauto].
    - intros (L & [<-|[<-|[]]] & _); do 2 eexists; (split; [reflexivity|]); unfold first; do 3 right; left; split; auto; cbn; tauto.
    - intros (p & _ & L & H & _). destruct (IHe1 _ H) as (c & t & -> & Hc). cbn [app]. do 2 eexists. split; [reflexivity|eapply first_mono; eauto].
    - intros (-> & Ho & Hl & _). destruct l as [l|].
      + destruct (H _ Hl) as (c & t & -> & Hc). cbn [app]. do 2 eexists. split; [reflexivity|]. revert Hc. apply first_mono. lia.
      + destruct Ho as [<-|[<-|[]]]; do 2 eexists; (split; [reflexivity|]); unfold first; do 4 right; auto.
    - intros _. eapply Q; [reflexivity|cbn; tauto].
    - intros _. eapply Q; [reflexivity|cbn; tauto].
    - intros (L & H1 & _). destruct (IHe _ H1) as (c & t & -> & Hc). cbn [app]. do 2 eexists. split; [reflexivity|eapply first_mono; eauto].
    - intros (L & H & _). destruct (path_hd p [] H) as (c & t & E & Hc). rewrite app_nil_r in E. rewrite E. cbn [app]. do 2 eexists. split; [reflexivity|]. unfold first.
      destruct Hc as [Hc| ->]; auto. right; right; left. cbn; tauto.
    - intros (L & H). destruct (IHe _ H) as (c & t & -> & Hc). cbn [app]. do 2 eexists. split; [reflexivity|eapply first_mono; eauto].
  Qed.
  Lemma first_ws k c : first k c -> is_ws c = false.
  Proof. clear lc.
    intros [H|[H|[H|[[_ H]|[_ ->]]]]]; [now apply id_not_ws|revert H; unfold is_dec, is_ws; lia| | |reflexivity].
    - destruct H as [<-|[<-|[<-|[<-|[<-|[]]]]]]; reflexivity.
    - destruct H as [<-|[<-|[]]]; reflexivity.
  Qed.
  Lemma canon_ws k e r : canon k e -> nohd is_ws (text e ++ r).
  Proof. intros H. destruct (canon_hd e k H) as (c & t & -> & Hc). cbn [app nohd]. now apply (first_ws k). Qed.
  Lemma canon_pre e r : canon 12 e -> is_perr (pre_op (text e ++ r)).
  Proof.
    intros H. destruct (canon_hd e 12 H) as (c & t & -> & Hc). cbn [app]. apply pre_op_perr; cbn [nohd]; [now apply (first_ws 12)| |].
    - destruct (N.eqb_spec 33 c) as [<-|]; auto. destruct Hc as [Hc|[Hc|[Hc|[[Hc _]|[Hc _]]]]]; try discriminate; try lia. cbn in Hc. intuition discriminate.
    - destruct (N.eqb_spec 45 c) as [<-|]; auto. destruct Hc as [Hc|[Hc|[Hc|[[Hc _]|[Hc _]]]]]; try discriminate; try lia. cbn in Hc. intuition discriminate.
  Qed.
  Lemma range_no r i : nohd is_ws i -> nohd (N.eqb 46) i -> is_perr (range_right lc r i).
  Proof.
    intros H1 H2. unfold range_right, pbind at 1. destruct (pws_perr0 (tag (lit "..=") <|> tag (lit "..")) i H1) as (e & m & ->); [|exact (perr_i _ _)].
    unfold por. change (lit "..=") with (46 :: lit ".="). change (lit "..") with (46 :: lit "."). rewrite !no_tag by auto. exact (perr_i _ _).
  Qed.
  Lemma canon_no_range k e r : (1 <= k)%nat -> canon k e -> nohd (N.eqb 46) (text e ++ r).
  Proof.
    intros L H. destruct (canon_hd e k H) as (c & t & -> & Hc). cbn [app nohd]. destruct (N.eqb_spec 46 c) as [<-|]; auto.
    destruct Hc as [Hc|[Hc|[Hc|[[_ Hc]|[Hc _]]]]]; try discriminate; try lia; cbn in Hc; intuition discriminate.
  Qed.

  (** An expression that is no range. *)
  Lemma good0_of_good e : canon 1 e -> good 1 e -> good0 e.
  Proof.
    intros Hc H n b s Hn Hb Hs. exists b. split; auto. change (15 + n)%nat with (S (14 + n)). rewrite pe_parse. unfold por, pmap.
    destruct (range_no (14 + n) (text e ++ b ++ s)) as (x & m & ->); [eapply canon_ws; eauto|eapply canon_no_range; eauto|].
    unfold pbind at 1. specialize (H n (b ++ s) Hn (f_end 1 b s Hb Hs)). change (lp 1 (15 - 1 + n)) with (pe (14 + n) NtOr) in H. rewrite H.
    unfold pbind, opt. destruct (end_range lc (14 + n) b s Hb Hs) as (y & m' & ->). reflexivity.
  Qed.

  (** ** Lists *)
  Lemma elem_read e n b s : canon 0 e -> good0 e -> (need e <= n)%nat -> blanks b -> ends s -> pws (pe (15 + n) NtParse) (b ++ text e ++ s) = POk s e.
  Proof.
    intros Hc H Hn Hb Hs. destruct (H n [] s Hn ltac:(constructor) (or_introl Hs)) as (b' & Hb' & E). cbn [app] in E. unfold pws, pbind.
    rewrite skip_blanks_exact by (auto; eapply canon_ws; eauto). rewrite E, skip_blanks_exact by (auto; now apply ends_ws). reflexivity.
  Qed.
  Lemma parse_no n s : ends s -> is_perr (pe (15 + n) NtParse s).
  Proof.
    intros Hs. change (15 + n)%nat with (S (14 + n)). rewrite pe_parse. unfold por, pmap. destruct (end_range lc (14 + n) [] s ltac:(constructor) (or_introl Hs)) as (e & m & E). cbn [app] in E. rewrite E.
    unfold pbind at 1. destruct (bad_start lc 1 n s ltac:(lia) (ends_no_start s Hs)) as (e' & m' & E'). change (lp 1 (15 - 1 + n)) with (pe (14 + n) NtOr) in E'. rewrite E'. exact (perr_i _ _).
  Qed.
  Lemma elem_no n s : ends s -> is_perr (pws (pe (15 + n) NtParse) s).
  Proof. intros Hs. apply pws_perr0; [now apply ends_ws|now apply parse_no]. Qed.
  Definition tail_text (l : list expr) : str := concat (map (fun y => lit ", " ++ y) (map text l)).
  Lemma tail_ends l c rest : stop c -> ends (tail_text l ++ c :: rest).
  Proof. clear lc. intros H. destruct l; [exact H|]. cbn. repeat split. unfold stop_chars. cbn. intuition discriminate. Qed.
  Lemma stop_closers c : In c [41; 93; 44] -> stop c.
  Proof. intros [<-|[<-|[<-|[]]]]; repeat split; unfold stop_chars; cbn; intuition discriminate. Qed.
  Lemma sep_read {S} (st : S) (p : S -> P (S * expr)) l c rest : In c [41; 93] ->
    (forall e, In e l -> forall b s, blanks b -> ends s -> p st (b ++ text e ++ s) = POk s (st, e)) -> is_perr (p st (c :: rest)) ->
    separated_list0_st (pchar 44) p st (sep_by (lit ", ") (map text l) ++ c :: rest) = POk (c :: rest) l.
  Proof. clear lc.
    intros Hc H E. assert (Sc : stop c) by (apply stop_closers; cbn in *; tauto).
    assert (G : forall l n, (forall e, In e l -> forall b s, blanks b -> ends s -> p st (b ++ text e ++ s) = POk s (st, e)) ->
      (length (tail_text l ++ c :: rest) < n)%nat -> sep_loop n (pchar 44) p st (tail_text l ++ c :: rest) = POk (c :: rest) l).
    { clear H l. induction l as [|e l IH]; intros n H Hn; (destruct n as [|n]; [lia|]).
      - cbn [tail_text map concat app sep_loop]. rewrite pchar_no; [reflexivity|]. cbn [nohd]. destruct Hc as [<-|[<-|[]]]; reflexivity.
      - unfold tail_text in *. cbn [map concat]. rewrite <- !app_assoc. cbn [map concat] in Hn. rewrite <- !app_assoc in Hn.
        change (lit ", " ++ ?x) with (44 :: 32 :: x) in *. cbn [sep_loop]. 
        set (t := text e ++ concat (map (fun y : list N => lit ", " ++ y) (map text l)) ++ c :: rest) in *.
        change (pchar 44 (44 :: 32 :: t)) with (POk (32 :: t) 44). cbv iota.
        destruct (Nat.eqb_spec (length (32 :: t)) (length (44 :: 32 :: t))) as [X|_]; [cbn in X; lia|].
        unfold t. change (32 :: text e ++ ?x) with ([32] ++ text e ++ x).
        rewrite (H e (or_introl eq_refl) [32] _); [|repeat constructor|apply (tail_ends l c rest Sc)].
        rewrite IH; [reflexivity|intros; apply H; auto; now right|]. unfold t in Hn. cbn [length] in Hn. rewrite app_length in Hn. change (fun y : list N => 44 :: 32 :: y) with (fun y : list N => lit ", " ++ y). lia. }
    destruct l as [|e l].
    - cbn [map sep_by app]. unfold separated_list0_st. destruct E as (x & m & ->). reflexivity.
    - cbn [map]. rewrite sep_cons, <- app_assoc. change (concat (map (fun y => lit ", " ++ y) (map text l))) with (tail_text l). unfold separated_list0_st.
      pose proof (H e (or_introl eq_refl) [] (tail_text l ++ c :: rest) ltac:(constructor) (tail_ends l c rest Sc)) as F. cbn [app] in F. rewrite F.
      rewrite G; [reflexivity|intros; apply H; auto; now right|lia].
  Qed.
  Lemma opt_comma c rest : In c [41; 93] -> opt (pws (pchar 44)) (c :: rest) = POk (c :: rest) None.
  Proof.
    intros Hc. unfold opt. destruct (pws_perr0 (pchar 44) (c :: rest)) as (e & m & ->); auto.
    - destruct Hc as [<-|[<-|[]]]; reflexivity.
    - rewrite pchar_no; [exact (perr_i _ _)|]. destruct Hc as [<-|[<-|[]]]; reflexivity.
  Qed.
  Lemma list_ws l c rest : Forall (canon 0) l -> In c [41; 93] -> nohd is_ws (sep_by (lit ", ") (map text l) ++ c :: rest).
  Proof.
    intros Hl Hc. destruct l as [|e l]; [destruct Hc as [<-|[<-|[]]]; reflexivity|]. cbn [map]. rewrite sep_cons, <- app_assoc. inversion Hl; subst. eapply canon_ws; eauto.
  Qed.
  Lemma args_read l n rest : Forall (canon 0) l -> Forall good0 l -> Forall (fun e => (need e <= n)%nat) l ->
    pe (16 + n) (NtArguments false) (lit "(" ++ sep_by (lit ", ") (map text l) ++ lit ")" ++ rest) = POk rest l.
  Proof.
    intros Hc Hg Hn. change (16 + n)%nat with (S (15 + n)). rewrite pe_args. change (lit ")" ++ rest) with (41 :: rest).
    set (start := lit "(" ++ _). unfold start at 2. unfold pbind at 1.
    rewrite (pws_tight (pchar 40) _ (sep_by (lit ", ") (map text l) ++ 41 :: rest) 40); [|reflexivity|apply list_ws; auto; cbn; auto|reflexivity].
    unfold cut, pbind at 1. rewrite (sep_read [] (fun names => pws (argument perr (pe (15 + n) NtParse) start names)) l 41 rest).
    - unfold pbind at 1. rewrite opt_comma by (cbn; auto). reflexivity.
    - cbn; auto.
    - intros e He b s Hb Hs. rewrite Forall_forall in Hc, Hg, Hn. pose proof (elem_read e n b s (Hc e He) (Hg e He) (Hn e He) Hb Hs) as E.
      unfold pws, pbind in *. destruct (skip_blanks _) as [j x|? ?|? ?|]; try discriminate. unfold argument, perr.
      destruct (pe (15 + n) NtParse j) as [j' x'|? ?|? ?|]; try discriminate. cbn [nonempty andb].
      destruct (skip_blanks j') as [j2 x2|? ?|? ?|]; try discriminate. unfold pret in *. injection E as -> ->. reflexivity.
    - destruct (elem_no n (41 :: rest) (stop_closers 41 ltac:(cbn; auto))) as (x & m & E).
      unfold pws, pbind in *. rewrite skip_none in * by reflexivity. unfold argument, perr.
      destruct (pe (15 + n) NtParse (41 :: rest)) as [j' x'|? ?|? ?|]; try discriminate; [|exact (perr_i _ _)].
      exfalso. revert E. unfold skip_blanks, take_till. destruct (span _ j'). discriminate.
  Qed.
  Lemma array_read l n rest : Forall (canon 0) l -> Forall good0 l -> Forall (fun e => (need e <= n)%nat) l ->
    pe (16 + n) NtArray (lit "[" ++ sep_by (lit ", ") (map text l) ++ lit "]" ++ rest) = POk rest (Arr l).
  Proof.
    intros Hc Hg Hn. change (16 + n)%nat with (S (15 + n)). rewrite pe_array. change (lit "]" ++ rest) with (93 :: rest). unfold pbind at 1.
    rewrite (pws_tight (pchar 91) _ (sep_by (lit ", ") (map text l) ++ 93 :: rest) 91); [|reflexivity|apply list_ws; auto; cbn; auto|reflexivity].
    unfold cut, pbind at 1, separated_list0. rewrite (sep_read tt _ l 93 rest).
    - unfold pbind at 1. rewrite opt_comma by (cbn; auto). reflexivity.
    - cbn; auto.
    - intros e He b s Hb Hs. rewrite Forall_forall in Hc, Hg, Hn. pose proof (elem_read e n b s (Hc e He) (Hg e He) (Hn e He) Hb Hs) as E.
      unfold pmap. rewrite E. reflexivity.
    - unfold pmap. destruct (elem_no n (93 :: rest) (stop_closers 93 ltac:(cbn; auto))) as (x & m & ->). exact (perr_i _ _).
  Qed.
  Lemma tuple_steps l n c rest : In c [41; 44] -> Forall (canon 0) l -> Forall good0 l -> Forall (fun e => (need e <= n)%nat) l ->
    steps (pchar 44 ;;; pws (pe (15 + n) NtParse)) (tail_text l ++ c :: rest) l (c :: rest).
  Proof.
    intros Hk Hc Hg Hn. induction l as [|e l IH]; [constructor|]. inversion Hc; inversion Hg; inversion Hn; subst.
    unfold tail_text in *. cbn [map concat]. rewrite <- !app_assoc. econstructor; [| |apply IH; auto].
    - unfold pbind. change (pchar 44 (lit ", " ++ ?x)) with (POk ([32] ++ x) 44). cbv iota.
      apply elem_read; auto; [repeat constructor|]. apply (tail_ends l c rest). apply stop_closers. cbn in *. tauto.
    - rewrite !app_length. cbn. lia.
  Qed.
  Lemma group_read_empty n rest : pe (16 + n) NtGroup (lit "(" ++ lit ")" ++ rest) = POk rest (Tuple []).
  Proof.
    change (16 + n)%nat with (S (15 + n)). rewrite pe_group. unfold pbind at 1. unfold pbind at 1.
    rewrite (pws_tight (pchar 40) _ (lit ")" ++ rest) 40); [|reflexivity..]. unfold opt. destruct (parse_no n (lit ")" ++ rest)) as (x & m & ->); [apply stop_closers; cbn; auto|].
    reflexivity.
  Qed.
  Lemma group_read e n rest : canon 0 e -> good0 e -> (need e <= n)%nat -> pe (16 + n) NtGroup (lit "(" ++ text e ++ lit ")" ++ rest) = POk rest (Group e).
  Proof.
    intros Hc Hg Hn. change (16 + n)%nat with (S (15 + n)). rewrite pe_group. unfold pbind at 1. unfold pbind at 1.
    rewrite (pws_tight (pchar 40) _ (text e ++ lit ")" ++ rest) 40); [|reflexivity|eapply canon_ws; eauto|reflexivity].
    destruct (Hg n [] (lit ")" ++ rest) Hn ltac:(constructor) (or_introl (stop_closers 41 ltac:(cbn; auto)))) as (b' & Hb' & E). cbn [app] in E. unfold opt at 1. rewrite E.
    unfold pbind at 1. assert (W : pws (opt (peek (pchar 44))) (b' ++ lit ")" ++ rest) = POk (lit ")" ++ rest) None).
    { unfold pws, pbind. rewrite skip_blanks_exact by (auto; reflexivity). change (opt (peek (pchar 44)) (lit ")" ++ rest)) with (POk (lit ")" ++ rest) (@None N)). cbv iota.
      rewrite skip_none by reflexivity. reflexivity. }
    rewrite W. reflexivity.
  Qed.
  Lemma tuple_read e l n rest : canon 0 e -> good0 e -> (need e <= n)%nat -> Forall (canon 0) l -> Forall good0 l -> Forall (fun e => (need e <= n)%nat) l ->
    pe (16 + n) NtGroup (lit "(" ++ sep_by (lit ", ") (map text (e :: l)) ++ (match l with [] => lit "," | _ => [] end) ++ lit ")" ++ rest) = POk rest (Tuple (e :: l)).
  Proof.
    intros Hc Hg Hn Hcl Hgl Hnl. change (16 + n)%nat with (S (15 + n)). rewrite pe_group. unfold pbind at 1. unfold pbind at 1.
    cbn [map]. rewrite sep_cons, <- app_assoc. fold (tail_text l).
    set (tl := tail_text l ++ (match l with [] => lit "," | _ => [] end) ++ lit ")" ++ rest).
    assert (T44 : exists u, tl = 44 :: u) by (unfold tl; destruct l; cbn; eauto). destruct T44 as (u & T44).
    assert (Et : ends tl) by (rewrite T44; apply stop_closers; cbn; auto).
    rewrite (pws_tight (pchar 40) _ (text e ++ tl) 40); [|reflexivity|eapply canon_ws; eauto|reflexivity].
    destruct (Hg n [] tl Hn ltac:(constructor) (or_introl Et)) as (b' & Hb' & E). cbn [app] in E. unfold opt at 1. rewrite E.
    unfold pbind at 1. assert (W : pws (opt (peek (pchar 44))) (b' ++ tl) = POk tl (Some 44)).
    { unfold pws, pbind. rewrite skip_blanks_exact by (auto; now apply ends_ws). rewrite T44. change (opt (peek (pchar 44)) (44 :: u)) with (POk (44 :: u) (Some 44)). cbv iota.
      rewrite skip_none by reflexivity. reflexivity. }
    rewrite W. unfold pbind at 1. destruct l as [|e2 l].
    - unfold tl. change (tail_text [] ++ lit "," ++ lit ")" ++ rest) with (44 :: 41 :: rest).
      rewrite (many0_steps _ _ [] (44 :: 41 :: rest)); [reflexivity|constructor|]. unfold pbind. change (pchar 44 (44 :: 41 :: rest)) with (POk (41 :: rest) 44). cbv iota.
      apply elem_no. apply stop_closers; cbn; auto.
    - unfold tl. change ([] ++ lit ")" ++ rest) with (41 :: rest).
      rewrite (many0_steps _ _ (e2 :: l) (41 :: rest)); [reflexivity| |].
      + apply tuple_steps; auto. cbn; auto.
      + unfold pbind. rewrite pchar_no by reflexivity. exact (perr_i _ _).
  Qed.

  (** ** The induction *)
  Lemma canon_mono e j k : (k <= j)%nat -> canon j e -> canon k e.
  Proof.
    intros L. destruct e; cbn [PrecSpec.canon]; try tauto; try (intros (H & H'); split; [lia|exact H']).
    - intros (p & H1 & H2 & H3). exists p. split; auto. split; [lia|auto].
  Qed.
  Definition reads (e : expr) : Prop := forall k, canon k e -> ((1 <= k)%nat -> good k e) /\ ((1 <= k <= 12)%nat -> sp k e) /\ good0 e.
  Lemma down q e : (1 <= q <= 13)%nat -> canon q e -> good q e -> forall k, (1 <= k <= q)%nat -> good k e /\ ((k < q)%nat -> sp k e).
  Proof.
    intros Hq Hc H k Hk. assert (G : forall d, (d <= q - 1)%nat -> good (q - d) e).
    { induction d as [|d IH]; intros Hd; [now rewrite Nat.sub_0_r|]. apply good_of_sp; [lia|]. apply sp_of_good; [lia| |].
      - intros E r. apply canon_pre. apply (canon_mono e q); [lia|auto].
      - replace (S (q - S d))%nat with (q - d)%nat by lia. apply IH. lia. }
    split; [replace k with (q - (q - k))%nat by lia; apply G; lia|]. intros L. apply sp_of_good; [lia| |].
    - intros E r. apply canon_pre. apply (canon_mono e q); [lia|auto].
    - replace (S k) with (q - (q - S k))%nat by lia. apply G. lia.
  Qed.
  Lemma finish q e : (1 <= q <= 13)%nat -> canon q e -> good q e -> ((q <= 12)%nat -> sp q e) -> (forall k, canon k e -> (k <= q)%nat) -> reads e.
  Proof.
    intros Hq Hc Hg Hs Hm k Hk. specialize (Hm k Hk). repeat split.
    - intros L. apply (down q e Hq Hc Hg k). lia.
    - intros [L1 L2]. destruct (Nat.eq_dec k q) as [->|]; [auto|]. apply (down q e Hq Hc Hg k); lia.
    - apply good0_of_good; [apply (canon_mono e q); [lia|auto]|]. apply (down q e Hq Hc Hg 1). lia.
  Qed.
  Lemma finish_sp q e : (1 <= q <= 12)%nat -> canon q e -> sp q e -> (forall k, canon k e -> (k <= q)%nat) -> reads e.
  Proof. intros Hq Hc Hs Hm. apply (finish q); auto; [lia|]. now apply good_of_sp. Qed.
  Lemma max_list_le l n : (max_list l <= n)%nat -> Forall (fun m => (m <= n)%nat) l.
  Proof. induction l as [|m l IH]; intros H; constructor; cbn in H; [lia|apply IH; lia]. Qed.
  Lemma needs_le l n : (max_list (map (fun e => need e) l) <= n)%nat -> Forall (fun e => (need e <= n)%nat) l.
  Proof. intros H. apply max_list_le in H. rewrite Forall_map in H. exact H. Qed.
  Lemma reads_good0 l : Forall reads l -> Forall (canon 0) l -> Forall good0 l.
  Proof. intros H1 H2. rewrite Forall_forall in *. intros e He. apply (H1 e He 0%nat). auto. Qed.
  Lemma ops_exact op p s : In (op, p) precedence -> ops_of p (op ++ 32 :: s) = POk (32 :: s) op.
  Proof. intros H. repeat (destruct H as [[= <- <-]|H]; [reflexivity|]). destruct H. Qed.
  Lemma op_facts op p : In (op, p) precedence -> (1 <= p <= 9)%nat /\ forall s, nohd is_ws (op ++ s).
  Proof. intros H. repeat (destruct H as [[= <- <-]|H]; [split; [lia|reflexivity]|]). destruct H. Qed.
  Lemma body_read op p r n rest : In (op, p) precedence -> canon (S p) r -> good (S p) r -> (need r <= n)%nat -> follow (S p) rest ->
    body lc p (15 - S p + n) (lit " " ++ op ++ lit " " ++ text r ++ rest) = POk rest (op, r).
  Proof.
    intros Ho Hc Hg Hn Hf. destruct (op_facts op p Ho) as (_ & Hw). unfold body, pbind at 1.
    rewrite (pws_exact (ops_of p) (lit " ") (op ++ lit " " ++ text r ++ rest) op (lit " ") (text r ++ rest) op).
    - unfold pbind. rewrite Hg by auto. reflexivity.
    - repeat constructor.
    - repeat constructor.
    - apply Hw.
    - eapply canon_ws; eauto.
    - reflexivity.
    - apply ops_exact. exact Ho.
  Qed.
  Lemma string_scan q s n : quoted 34 q -> np_scan n true false (q ++ 34 :: s) = np_scan n false false s.
  Proof.
    intros H. induction H as [|c q H1 H2 H IH|c q H IH].
    - reflexivity.
    - cbn [app np_scan]. destruct (N.eqb_spec c 34) as [->|]; [congruence|]. destruct (N.eqb_spec c 92) as [->|]; [congruence|].
      destruct ((c =? 40) || (c =? 41)) eqn:E; cbn [negb orb andb]; [exact IH|]. apply orb_false_iff in E. destruct E as [-> ->]. exact IH.
    - cbn [app]. change (np_scan n true false (92 :: c :: q ++ 34 :: s)) with (np_scan n true true (c :: q ++ 34 :: s)). cbn [np_scan].
      destruct (N.eqb_spec c 92) as [->|]; [exact IH|]. destruct ((c =? 40) || (c =? 41)) eqn:E; cbn [negb orb andb]; [exact IH|].
      apply orb_false_iff in E. destruct E as [-> ->]. destruct (c =? 34); exact IH.
  Qed.
  Lemma matching_scan a n r : matching n a -> np_scan n false false (a ++ 41 :: r) = (0, Some (41 :: r)).
  Proof. clear lc.
    induction 1 as [|n s H IH|n s Hn H IH|n c s Hc H IH|n q s Hq H IH].
    - reflexivity.
    - exact IH.
    - cbn [app np_scan]. cbn. destruct (N.eqb_spec n 0) as [->|]; [lia|]. exact IH.
    - cbn [app np_scan]. destruct (N.eqb_spec c 40) as [->|]; [exfalso; apply Hc; cbn; tauto|]. destruct (N.eqb_spec c 41) as [->|]; [exfalso; apply Hc; cbn; tauto|].
      destruct (N.eqb_spec c 34) as [->|]; [exfalso; apply Hc; cbn; tauto|]. destruct (N.eqb_spec c 92) as [->|]; [exfalso; apply Hc; cbn; tauto|]. exact IH.
    - cbn [app]. rewrite <- app_assoc. change (np_scan n false false (34 :: q ++ (34 :: s) ++ 41 :: r)) with (np_scan n true false (q ++ 34 :: s ++ 41 :: r)).
      rewrite string_scan by exact Hq. exact IH.
  Qed.
  Lemma reads_good e k : reads e -> canon k e -> (1 <= k)%nat -> good k e.
  Proof. intros H Hc L. now apply (H k Hc). Qed.
  Lemma reads_sp e k : reads e -> canon k e -> (1 <= k <= 12)%nat -> sp k e.
  Proof. intros H Hc L. now apply (H k Hc). Qed.
  (** One more postfix operator. *)
  Lemma suffix_reads e1 e x (t : str) : canon 12 e1 -> reads e1 -> canon 12 e -> (forall k, canon k e -> (k <= 12)%nat) -> (need e1 <= need e)%nat ->
    text e = text e1 ++ t -> t <> [] -> app_suf e1 x = Some e ->
    (forall rest, follow 13 (t ++ rest)) ->
    (forall n rest, (need e <= n)%nat -> follow 13 rest -> suf lc (2 + n) (t ++ rest) = POk rest x) -> reads e.
  Proof.
    intros Hc1 H1 Hc Hm Hn Ht Hne Ha Hf Hx. apply (finish_sp 12); auto; [lia|]. intros n rest Hneed Hr.
    destruct (reads_sp e1 12 H1 Hc1 ltac:(lia) n (t ++ rest) ltac:(lia) (Hf rest)) as (e0 & j & E & Hs).
    exists e0, j. rewrite Ht, <- app_assoc. split; [exact E|]. eapply sufs_snoc; [exact Hs|now apply Hx| |exact Ha].
    rewrite app_length. destruct t; [congruence|]. cbn. lia.
  Qed.
  Lemma is_bool_eqb s : ~ is_bool s -> str_eqb s (lit "true") || str_eqb s (lit "false") = false.
  Proof.
    intros H. destruct (str_eqb s (lit "true")) eqn:E1; [apply str_eqb_eq in E1; destruct H; now left|].
    destruct (str_eqb s (lit "false")) eqn:E2; [apply str_eqb_eq in E2; destruct H; now right|]. reflexivity.
  Qed.
  Lemma lower_hd s : lower_first lc s -> (match s with [] => true | c :: _ => lc c end) = true.
  Proof. destruct s; auto. Qed.
  Lemma bool_ident s : is_bool s -> ident s.
  Proof.
    intros [->| ->]; [exists 116, [114; 117; 101]|exists 102, [97; 108; 115; 101]]; (split; [reflexivity|]); unfold ident_start; (split; [lia|]); repeat constructor; lia.
  Qed.
  Lemma ident_path s : ident s -> path_ok [s].
  Proof. intros H. exists [s]. split; [discriminate|]. split; [constructor; auto|]. now left. Qed.
  Lemma proper_expr p : proper_path lc p -> path_expr lc p = Path p.
  Proof.
    intros ((l & Hn & Hl & Hp) & H). destruct p as [|x [|y p]]; try reflexivity. unfold path_expr.
    destruct Hp as [<-|E]; [|destruct l; [congruence|discriminate]]. specialize (H x eq_refl). inversion Hl as [|? ? Hx _]; subst. destruct Hx as (c & t & -> & _).
    cbn in H. destruct (lc c); [congruence|reflexivity].
  Qed.
  Lemma var_expr s : ident s -> lower_first lc s -> ~ is_bool s -> path_expr lc [s] = Var s.
  Proof. intros _ H1 H2. unfold path_expr. rewrite lower_hd by auto. rewrite is_bool_eqb by auto. reflexivity. Qed.
  Lemma bool_expr s : lower_first lc s -> is_bool s -> path_expr lc [s] = BoolLit s.
  Proof. intros H1 [->| ->]; unfold path_expr; rewrite lower_hd by auto; reflexivity. Qed.

  Lemma range_read o r n b0 b s : In o range_ops -> blanks b0 -> blanks b -> ends2 s ->
    match r with Some e => canon 1 e /\ good 1 e /\ (need e <= n)%nat | None => True end ->
    exists b', blanks b' /\ range_right lc (14 + n) (b0 ++ o ++ match r with Some e => lit " " ++ text e | None => [] end ++ b ++ s) = POk (b' ++ s) (o, r).
  Proof.
    intros Ho Hb0 Hb Hs Hr. set (t := match r with Some e => lit " " ++ text e | None => [] end ++ b ++ s).
    assert (T61 : nohd (N.eqb 61) t).
    { unfold t. destruct r as [e|]; [reflexivity|]. cbn [app]. destruct Hb as [|x b' Hx Hb]; [apply ends2_chr; auto; cbn; tauto|].
      destruct Hx as [<-|[<-|[<-|[<-|[]]]]]; reflexivity. }
    assert (T : (tag (lit "..=") <|> tag (lit "..")) (o ++ t) = POk t o).
    { unfold por. destruct Ho as [<-|[<-|[]]]; [now rewrite tag_exact|]. rewrite (tag_fail (lit "..=")); [now rewrite tag_exact|].
      intros x E. change (lit "..=" ++ x) with (lit ".." ++ 61 :: x) in E. apply app_inv_head in E. rewrite E in T61. discriminate T61. }
    assert (N : nohd is_ws (o ++ t)) by (destruct Ho as [<-|[<-|[]]]; reflexivity).
    unfold range_right, pbind at 1. destruct r as [e|]; unfold t in *; cbn [app] in *.
    - destruct Hr as (Hc & Hg & Hn). exists b. split; auto. rewrite <- app_assoc in *.
      rewrite (pws_exact (tag (lit "..=") <|> tag (lit "..")) b0 (o ++ lit " " ++ text e ++ b ++ s) o (lit " ") (text e ++ b ++ s) o); auto; [|repeat constructor|eapply canon_ws; eauto].
      unfold pbind, opt. specialize (Hg n (b ++ s) Hn (f_end 1 b s Hb Hs)). change (lp 1 (15 - 1 + n)) with (pe (14 + n) NtOr) in Hg. rewrite Hg. reflexivity.
    - exists []. split; [constructor|].
      rewrite (pws_exact (tag (lit "..=") <|> tag (lit "..")) b0 (o ++ b ++ s) o b s o); auto; [|now apply ends2_ws].
      unfold pbind, opt. destruct (bad_start2 lc 1 n s ltac:(lia) Hs) as (x & m & E). change (lp 1 (15 - 1 + n)) with (pe (14 + n) NtOr) in E. rewrite E. reflexivity.
  Qed.

  Theorem reads_all e : reads e.
  Proof.
    induction e using expr_ind'.
    - (* BoolLit *) intros k0 H0. assert (Hb : is_bool s /\ lower_first lc s) by (cbn [PrecSpec.canon] in H0; tauto). destruct Hb as (Hb & Hl).
      revert k0 H0. apply (finish 13); [lia|cbn [PrecSpec.canon]; auto| |lia|cbn [PrecSpec.canon]; tauto]. intros n rest _ Hr. change (lp 13 (15 - 13 + n)) with (pe (S (1 + n)) NtSingle).
      pose proof (single_path lc [s] rest 13 (1 + n) (ident_path s (bool_ident s Hb)) Hr) as E. rewrite (bool_expr s Hl Hb) in E. exact E.
    - (* NumLit *) intros k0 H0. assert (Hs : rust_number s) by (cbn [PrecSpec.canon] in H0; tauto). revert k0 H0.
      apply (finish 13); [lia|cbn [PrecSpec.canon]; auto| |lia|cbn [PrecSpec.canon]; tauto]. intros n rest _ Hr. exact (single_num lc s rest 13 (1 + n) Hs Hr).
    - (* StrLit *) intros k0 H0. assert (Hs : quoted 34 s) by (cbn [PrecSpec.canon] in H0; tauto). revert k0 H0.
      apply (finish 13); [lia|cbn [PrecSpec.canon]; auto| |lia|cbn [PrecSpec.canon]; tauto]. intros n rest _ Hr. cbn [text]. rewrite <- !app_assoc. exact (single_str lc s rest (1 + n) Hs).
    - (* CharLit *) intros k0 H0. assert (Hs : char_text s) by (cbn [PrecSpec.canon] in H0; tauto). revert k0 H0.
      apply (finish 13); [lia|cbn [PrecSpec.canon]; auto| |lia|cbn [PrecSpec.canon]; tauto]. intros n rest _ Hr. cbn [text]. rewrite <- !app_assoc. exact (single_chr lc s rest (1 + n) Hs).
    - (* Var *) intros k0 H0. assert (Hs : ident s /\ lower_first lc s /\ ~ is_bool s) by (cbn [PrecSpec.canon] in H0; tauto). destruct Hs as (H1 & H2 & H3). revert k0 H0.
      apply (finish 13); [lia|cbn [PrecSpec.canon]; auto| |lia|cbn [PrecSpec.canon]; tauto]. intros n rest _ Hr.
      pose proof (single_path lc [s] rest 13 (1 + n) (ident_path s H1) Hr) as E. rewrite (var_expr s H1 H2 H3) in E. exact E.
    - (* Path *) intros k0 H0. assert (Hs : proper_path lc l) by (cbn [PrecSpec.canon] in H0; tauto). revert k0 H0.
      apply (finish 13); [lia|cbn [PrecSpec.canon]; auto| |lia|cbn [PrecSpec.canon]; tauto]. intros n rest _ Hr. cbn [text].
      pose proof (single_path lc l rest 13 (1 + n) (proj1 Hs) Hr) as E. rewrite (proper_expr l Hs) in E. exact E.
    - (* Arr *) intros k0 H0. assert (Hc : Forall (canon 0) l) by (apply canon_all; cbn [PrecSpec.canon] in H0; tauto). pose proof (reads_good0 l H Hc) as Hg. revert k0 H0.
      apply (finish 13); [lia|cbn [PrecSpec.canon]; split; [lia|now apply canon_all]| |lia|cbn [PrecSpec.canon]; tauto].
      intros n rest Hn Hr. cbn [need] in Hn. cbn [text]. rewrite <- !app_assoc. change (lp 13 (15 - 13 + n)) with (pe (S (S n)) NtSingle). apply single_array.
      replace (S n) with (16 + (n - 15))%nat by lia. apply array_read; auto. apply needs_le. lia.
    - (* Attr *) intros k0 H0. cbn [PrecSpec.canon] in H0. destruct H0 as (L0 & Hc & Ha).
      assert (Hc12 : canon 12 (Attr e x)) by (cbn [PrecSpec.canon]; auto). revert k0 L0. 
      assert (R : reads (Attr e x)); [|intros k0 L0; apply R; cbn [PrecSpec.canon]; auto].
      apply (suffix_reads e (Attr e x) (SAttr x) ((if starts_number x then lit " ." else lit ".") ++ x)); [exact Hc|exact IHe|exact Hc12|cbn [PrecSpec.canon]; tauto|cbn [need]; lia|reflexivity| | | |].
      + destruct (starts_number x); discriminate.
      + reflexivity.
      + intros rest. rewrite <- app_assoc. destruct (starts_number x) eqn:E; [apply f_attr2; lia|]. destruct Ha as [Ha|Ha].
        * destruct (ident_hd x Ha) as (c & t & -> & C). apply f_attr; auto.
        * exfalso. destruct Ha as [Ha|(t & -> & _)]; [|discriminate E]. destruct (rust_number_hd x Ha) as (c & t & -> & C). cbn in E. unfold is_dec in C. rewrite C in E. now rewrite orb_true_r in E.
      + intros n rest Hn Hr. destruct (follow_num 13 rest Hr) as [F1 F2]. pose proof (conj F1 F2 : after_num rest) as F.
        assert (N46 : exists c t, x ++ rest = c :: t /\ c <> 46 /\ is_ws c = false).
        { destruct Ha as [Ha|[Ha|(t & -> & _)]]; [destruct (ident_hd x Ha) as (c & t & -> & C)|destruct (rust_number_hd x Ha) as (c & t & -> & C)|cbn [app]; do 2 eexists; split; [reflexivity|split; [discriminate|reflexivity]]];
            cbn [app]; exists c, (t ++ rest); (split; [reflexivity|]); split; [intros ->; discriminate C|now apply id_not_ws|intros ->; discriminate C|revert C; unfold is_dec, is_ws; lia]. }
        assert (Q : (num_lit <|> identifier) (x ++ rest) = POk rest x).
        { unfold por. destruct Ha as [Ha|Ha].
          - destruct (no_num (x ++ rest)) as (z & m & ->); [|now apply ident_read].
            destruct (ident_hd x Ha) as (c & t & -> & C). cbn [app nohd]. revert C. unfold id_start, is_upper, is_lower, is_dec. lia.
          - rewrite signed_complete by auto. reflexivity. }
        assert (A : suffix_attr (((if starts_number x then lit " ." else lit ".") ++ x) ++ rest) = POk rest (SAttr x)).
        { unfold suffix_attr, pmap, pbind at 1. destruct N46 as (c & t & Ex & Hc46 & Hw).
          assert (W : pws (pchar 46 ;;; pnot (pchar 46)) (((if starts_number x then lit " ." else lit ".") ++ x) ++ rest) = POk (x ++ rest) tt).
          { rewrite <- app_assoc. rewrite Ex.
            assert (W1 : (pchar 46 ;;; pnot (pchar 46)) (46 :: c :: t) = POk (c :: t) tt).
            { unfold pbind. change (pchar 46 (46 :: c :: t)) with (POk (c :: t) 46). cbv iota. unfold pnot. rewrite pchar_no; [reflexivity|]. cbn [nohd]. destruct (N.eqb_spec 46 c); [congruence|reflexivity]. }
            unfold pws, pbind at 1. assert (SK : exists b, skip_blanks ((if starts_number x then lit " ." else lit ".") ++ c :: t) = POk (46 :: c :: t) b) by (destruct (starts_number x); eexists; reflexivity).
            destruct SK as (b & ->). unfold pbind at 1. rewrite W1. unfold pbind. rewrite skip_none by exact Hw. reflexivity. }
          rewrite W. unfold cut. rewrite Q. reflexivity. }
        unfold suf. unfold por at 1. rewrite A. reflexivity.
    - (* Index *) intros k0 H0. cbn [PrecSpec.canon] in H0. destruct H0 as (L0 & Hc & Hi).
      assert (Hc12 : canon 12 (Index e1 e2)) by (cbn [PrecSpec.canon]; auto).
      assert (R : reads (Index e1 e2)); [|apply R; cbn [PrecSpec.canon]; auto].
      apply (suffix_reads e1 (Index e1 e2) (SIndex e2) (lit "[" ++ text e2 ++ lit "]")); [exact Hc|exact IHe1|exact Hc12|cbn [PrecSpec.canon]; tauto|cbn [need]; lia|reflexivity|discriminate|reflexivity| |].
      + intros rest. apply f_suffix; [lia|cbn; auto].
      + intros n rest Hn Hr. cbn [need] in Hn. rewrite <- !app_assoc. unfold suf. unfold por at 1. destruct (attr_perr [] (lit "[" ++ text e2 ++ lit "]" ++ rest)) as (z & m & E); [constructor|reflexivity|reflexivity|].
        cbn [app] in E. rewrite E. unfold por at 1, pmap. change (2 + n)%nat with (S (1 + n)). rewrite pe_index. unfold pbind at 1.
        rewrite (pws_tight (pchar 91) _ (text e2 ++ lit "]" ++ rest) 91); [|reflexivity|eapply canon_ws; eauto|reflexivity].
        unfold cut, pbind at 1. replace (1 + n)%nat with (15 + (n - 14))%nat by lia.
        pose proof (elem_read e2 (n - 14) [] (lit "]" ++ rest) Hi (proj2 (proj2 (IHe2 0%nat Hi))) ltac:(lia) ltac:(constructor) (stop_closers 93 ltac:(cbn; auto))) as F.
        cbn [app] in F. rewrite F. reflexivity.
    - (* Filter *) intros k0 H0. cbn [PrecSpec.canon] in H0. destruct H0 as (L0 & Hf & H0). destruct l as [|o args]; [destruct H0|]. destruct H0 as (Hc & Hargs).
      assert (R : reads (Filter n (o :: args))); [|apply R; cbn [PrecSpec.canon]; auto].
      inversion H as [|? ? Ho Ha]; subst. apply canon_all in Hargs. pose proof (reads_good0 args Ha Hargs) as Hg.
      apply (finish_sp 10); [lia|cbn [PrecSpec.canon]; repeat split; auto; now apply canon_all| |cbn [PrecSpec.canon]; tauto].
      intros m rest Hn Hr. cbn [need] in Hn. cbn [text]. rewrite <- !app_assoc.
      assert (F11 : follow 11 (lit "|" ++ n ++ lit "(" ++ sep_by (lit ", ") (map text args) ++ lit ")" ++ rest)).
      { destruct (ident_hd n Hf) as (c & t & -> & C). apply f_filter; [lia|exact C]. }
      destruct (reads_sp o 10 Ho Hc ltac:(lia) m _ ltac:(lia) F11) as (e0 & l & j & E1 & E2 & E3). exists e0, (l ++ [(n, Some args)]), j. split; [exact E1|]. split.
      + eapply steps_snoc; [exact E2| |rewrite !app_length; cbn; lia].
        unfold filter. unfold pbind at 1. change (pchar 124 (lit "|" ++ ?x)) with (POk x 124). cbv iota. unfold pbind at 1.
        rewrite (pws_tight identifier _ (lit "(" ++ sep_by (lit ", ") (map text args) ++ lit ")" ++ rest) n).
        * unfold pbind, opt. replace (4 + m)%nat with (16 + (m - 12))%nat by lia. rewrite args_read; auto. apply needs_le. lia.
        * destruct (ident_hd n Hf) as (c & t & -> & C). cbn [app nohd]. now apply id_not_ws.
        * reflexivity.
        * apply ident_read; auto. reflexivity.
      + rewrite fold_left_app, E3. reflexivity.
    - (* NamedArgument *) intros k0 [].
    - (* Unary *) intros k0 H0. cbn [PrecSpec.canon] in H0. destruct H0 as (L0 & Ho & Hc).
      assert (R : reads (Unary o e)); [|apply R; cbn [PrecSpec.canon]; auto].
      apply (finish_sp 11); [lia|cbn [PrecSpec.canon]; auto| |cbn [PrecSpec.canon]; tauto].
      intros n rest Hn Hr. cbn [need] in *. cbn [text]. rewrite <- app_assoc.
      destruct (reads_sp e 11 IHe Hc ltac:(lia) n rest ltac:(lia) Hr) as (ops & j & e0 & E1 & E2 & E3 & E4 & E5).
      exists (o :: ops), j, e0. split; [|split; [exact E2|split; [exact E3|split; [cbn [fold_right]; now rewrite E4|cbn [length]; lia]]]].
      econstructor; [| |exact E1].
      + apply pws_tight; [|eapply canon_ws; eauto|]; destruct Ho as [<-|[<-|[]]]; reflexivity.
      + destruct Ho as [<-|[<-|[]]]; apply Nat.lt_succ_diag_r.
    - (* BinOp *) intros k0 H0. cbn [PrecSpec.canon] in H0. destruct H0 as (p & Ho & L0 & Hl & Hr). destruct (op_facts o p Ho) as (Hp & _).
      assert (R : reads (BinOp o e1 e2)); [|apply R; cbn [PrecSpec.canon]; exists p; auto].
      apply (finish_sp p); [lia|cbn [PrecSpec.canon]; exists p; auto| |].
      + intros n rest Hn Hf. cbn [need] in Hn. cbn [text].
        assert (D : exists e0 l j, lp (S p) (15 - S p + n) ((text e1 ++ lit " " ++ o ++ lit " " ++ text e2) ++ rest) = POk j e0 /\ steps (body lc p (15 - S p + n)) j l rest /\ fold_left bin l e0 = BinOp o e1 e2).
        { rewrite <- !app_assoc.
          assert (S1 : exists e0 l j, lp (S p) (15 - S p + n) (text e1 ++ lit " " ++ o ++ lit " " ++ text e2 ++ rest) = POk j e0 /\ steps (body lc p (15 - S p + n)) j l (lit " " ++ o ++ lit " " ++ text e2 ++ rest) /\ fold_left bin l e0 = e1).
          { pose proof (reads_sp e1 p IHe1 Hl ltac:(lia) n (lit " " ++ o ++ lit " " ++ text e2 ++ rest) ltac:(lia) (f_op (S p) o p (text e2 ++ rest) Ho ltac:(lia))) as S.
            do 10 (destruct p as [|p]; [exact S|]). lia. }
          destruct S1 as (e0 & l & j & E1 & E2 & E3). exists e0, (l ++ [(o, e2)]), j. split; [exact E1|]. split.
          - eapply steps_snoc; [exact E2| |].
            + apply body_read; auto; [apply reads_good; auto; lia|lia].
            + rewrite !app_length. cbn. lia.
          - rewrite fold_left_app, E3. reflexivity. }
        clear -D Hp. do 10 (destruct p as [|p]; [exact D|]). lia.
      + intros k. cbn [PrecSpec.canon]. intros (p' & Ho' & L' & _). enough (p' = p) by lia. clear -Ho Ho'.
        repeat (destruct Ho as [[= <- <-]|Ho]; [repeat (destruct Ho' as [E|Ho']; [try discriminate E; injection E as <-; reflexivity|]); destruct Ho'|]). destruct Ho.
    - (* Range *) intros k0 K0. cbn [PrecSpec.canon] in K0. destruct K0 as (-> & Ho & Hl & Hr). split; [lia|]. split; [lia|].
      intros n b s Hn Hb Hs. cbn [need] in Hn. cbn [text]. change (15 + n)%nat with (S (14 + n)). rewrite pe_parse.
      assert (RR : forall b0, blanks b0 -> exists b', blanks b' /\ range_right lc (14 + n) (b0 ++ o ++ match r with Some e => lit " " ++ text e | None => [] end ++ b ++ s) = POk (b' ++ s) (o, r)).
      { intros b0 Hb0. apply range_read; auto. destruct r as [e|]; [|exact I]. split; auto. split; [apply reads_good; auto|lia]. }
      destruct l as [e|].
      + destruct (RR (lit " ") ltac:(repeat constructor)) as (b' & Hb' & E). exists b'. split; auto. rewrite <- !app_assoc. unfold por, pmap.
        destruct (range_no (14 + n) (text e ++ lit " " ++ o ++ match r with Some e => lit " " ++ text e | None => [] end ++ b ++ s)) as (x & m & ->);
          [eapply canon_ws; eauto|apply (canon_no_range 1); auto|].
        unfold pbind at 1. cbn [POptE] in H. pose proof (reads_good e 1 H Hl ltac:(lia) n (lit " " ++ o ++ match r with Some e => lit " " ++ text e | None => [] end ++ b ++ s) ltac:(lia)
          (f_range 1 o _ ltac:(lia) Ho)) as G. change (lp 1 (15 - 1 + n)) with (pe (14 + n) NtOr) in G. rewrite G. unfold pbind, opt. rewrite E. reflexivity.
      + destruct (RR [] ltac:(constructor)) as (b' & Hb' & E). exists b'. split; auto. cbn [app] in *. rewrite <- !app_assoc. unfold por, pmap. rewrite E. reflexivity.
    - (* Group *) intros k0 H0. assert (Hc : canon 0 e) by (cbn [PrecSpec.canon] in H0; tauto). pose proof (IHe 0%nat Hc) as (_ & _ & Hg). revert k0 H0.
      apply (finish 13); [lia|cbn [PrecSpec.canon]; split; [lia|auto]| |lia|cbn [PrecSpec.canon]; tauto].
      intros n rest Hn Hr. cbn [need] in Hn. cbn [text]. rewrite <- !app_assoc. change (lp 13 (15 - 13 + n)) with (pe (S (S n)) NtSingle).
      change (lit "(" ++ ?x) with (40 :: x). rewrite single_group. replace (S n) with (16 + (n - 15))%nat by lia. change (40 :: ?x) with (lit "(" ++ x). apply group_read; auto. lia.
    - (* Tuple *) intros k0 H0. assert (Hc : Forall (canon 0) l) by (apply canon_all; cbn [PrecSpec.canon] in H0; tauto). pose proof (reads_good0 l H Hc) as Hg. revert k0 H0.
      apply (finish 13); [lia|cbn [PrecSpec.canon]; split; [lia|now apply canon_all]| |lia|cbn [PrecSpec.canon]; tauto].
      intros n rest Hn Hr. cbn [need] in Hn. cbn [text]. rewrite <- !app_assoc. change (lp 13 (15 - 13 + n)) with (pe (S (S n)) NtSingle).
      change (lit "(" ++ ?x) with (40 :: x). rewrite single_group. replace (S n) with (16 + (n - 15))%nat by lia. change (40 :: ?x) with (lit "(" ++ x).
      pose proof (needs_le l (n - 15) ltac:(lia)) as Hl.
      destruct l as [|e0 l0]; [apply group_read_empty|]. inversion Hc; inversion Hg; inversion Hl; subst.
      pose proof (tuple_read e0 l0 (n - 15) rest ltac:(auto) ltac:(auto) ltac:(auto) ltac:(auto) ltac:(auto) ltac:(auto)) as T. destruct l0; exact T.
    - (* Call *) intros k0 H0. cbn [PrecSpec.canon] in H0. destruct H0 as (L0 & Hc & Hargs). apply canon_all in Hargs. pose proof (reads_good0 l H Hargs) as Hg.
      assert (Hc12 : canon 12 (Call e l)) by (cbn [PrecSpec.canon]; repeat split; auto; now apply canon_all).
      assert (R : reads (Call e l)); [|apply R; eapply canon_mono; eauto].
      apply (suffix_reads e (Call e l) (SCall l) (lit "(" ++ sep_by (lit ", ") (map text l) ++ lit ")")); [exact Hc|exact IHe|exact Hc12|cbn [PrecSpec.canon]; tauto|cbn [need]; lia|reflexivity|discriminate|reflexivity| |].
      + intros rest. apply f_suffix; [lia|cbn; auto].
      + intros n rest Hn Hr. cbn [need] in Hn. rewrite <- !app_assoc. unfold suf. unfold por at 1.
        destruct (attr_perr [] (lit "(" ++ sep_by (lit ", ") (map text l) ++ lit ")" ++ rest)) as (z & m & E); [constructor|reflexivity|reflexivity|]. cbn [app] in E. rewrite E.
        unfold por at 1. destruct (index_perr lc [] (lit "(" ++ sep_by (lit ", ") (map text l) ++ lit ")" ++ rest) (1 + n)) as (z' & m' & E'); [constructor|reflexivity|reflexivity|]. cbn [app] in E'.
        change (2 + n)%nat with (S (1 + n)). rewrite E'. unfold por at 1, pmap. change (pe (S (1 + n)) NtCall) with (pe (1 + n) (NtArguments false)).
        replace (1 + n)%nat with (16 + (n - 15))%nat by lia. rewrite args_read; auto. apply needs_le. lia.
    - (* RustMacro *) intros k0 H0. cbn [PrecSpec.canon] in H0. destruct H0 as (L0 & Hp & Hb & Hm).
      assert (R : reads (RustMacro p a)); [|apply R; cbn [PrecSpec.canon]; auto].
      apply (finish_sp 12); [lia|cbn [PrecSpec.canon]; auto| |cbn [PrecSpec.canon]; tauto].
      intros n rest Hn Hr. exists (path_expr lc p), (lit "!(" ++ a ++ lit ")" ++ rest). cbn [text]. rewrite <- !app_assoc. split.
      + change (lp 13 (2 + n)) with (pe (S (1 + n)) NtSingle). apply (single_path lc p _ 13); auto. apply f_suffix; [lia|cbn; auto].
      + econstructor; [| | |constructor].
        * change (lit "!(" ++ a ++ lit ")" ++ rest) with (33 :: 40 :: a ++ 41 :: rest). unfold suf. unfold por at 1.
          destruct (attr_perr [] (33 :: 40 :: a ++ 41 :: rest)) as (z & m & E); [constructor|reflexivity|reflexivity|]. cbn [app] in E. rewrite E.
          unfold por at 1. destruct (index_perr lc [] (33 :: 40 :: a ++ 41 :: rest) (1 + n)) as (z' & m' & E'); [constructor|reflexivity|reflexivity|]. cbn [app] in E'.
          change (2 + n)%nat with (S (1 + n)). rewrite E'.
          unfold por at 1. destruct (call_perr lc [] (33 :: 40 :: a ++ 41 :: rest) n) as (z2 & m2 & E2); [constructor|reflexivity|reflexivity|]. cbn [app] in E2.
          change (S (1 + n))%nat with (S (S n)). rewrite E2.
          unfold por at 1. destruct (try_perr [] (33 :: 40 :: a ++ 41 :: rest)) as (z3 & m3 & E3); [constructor|reflexivity|reflexivity|]. cbn [app] in E3. rewrite E3.
          unfold suffix_macro. unfold pbind at 1. unfold pbind at 1. rewrite (pws_tight (pchar 33) _ (40 :: a ++ 41 :: rest) 33) by reflexivity.
          change (pchar 40 (40 :: a ++ 41 :: rest)) with (POk (a ++ 41 :: rest) 40). cbv iota. unfold cut, pbind at 1, pmap.
          rewrite (recognize_exact nested_parenthesis a (41 :: rest) tt); [reflexivity|]. unfold nested_parenthesis. rewrite matching_scan by exact Hm. reflexivity.
        * rewrite !app_length. cbn. lia.
        * destruct p as [|x [|y p']]; try reflexivity. unfold path_expr. destruct (match x with [] => true | c :: _ => lc c end) eqn:E; [|reflexivity].
          rewrite is_bool_eqb; [reflexivity|]. apply (Hb x eq_refl). destruct x as [|c x]; [|exact E].
          destruct Hp as (l & Hn0 & Hl0 & [<-|E0]); [inversion Hl0 as [|? ? Hi _]; subst; destruct Hi as (? & ? & ? & _); discriminate|destruct l; [congruence|discriminate]].
    - (* Try *) intros k0 H0. cbn [PrecSpec.canon] in H0. destruct H0 as (L0 & Hc).
      assert (R : reads (Try e)); [|apply R; cbn [PrecSpec.canon]; auto].
      apply (suffix_reads e (Try e) STry (lit "?")); [exact Hc|exact IHe|cbn [PrecSpec.canon]; auto|cbn [PrecSpec.canon]; tauto|cbn [need]; lia|reflexivity|discriminate|reflexivity| |].
      + intros rest. apply f_suffix; [lia|cbn; auto].
      + intros n rest Hn Hr. unfold suf. unfold por at 1.
        destruct (attr_perr [] (lit "?" ++ rest)) as (z & m & E); [constructor|reflexivity|reflexivity|]. cbn [app] in E. rewrite E.
        unfold por at 1. destruct (index_perr lc [] (lit "?" ++ rest) (1 + n)) as (z' & m' & E'); [constructor|reflexivity|reflexivity|]. cbn [app] in E'.
        change (2 + n)%nat with (S (1 + n)). rewrite E'.
        unfold por at 1. destruct (call_perr lc [] (lit "?" ++ rest) n) as (z2 & m2 & E2); [constructor|reflexivity|reflexivity|]. cbn [app] in E2.
        change (S (1 + n))%nat with (S (S n)). rewrite E2. reflexivity.
    - (* Generated *) intros k0 [].
  Qed.
End Round.
