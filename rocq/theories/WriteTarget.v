(** * Written targets are read back. *)
From Verif Require Import Base Config ConfigFacts Nom Ws Ast Lex ParseExpr ParseNode NomFacts LexFacts LitSpec LitFacts ParseSpec TreeSpec ExprFacts WsFacts TextFacts PrecSpec LitComplete SimExpr SimFacts PrecFacts PrecRound WriteSpec.
From Coq Require Import Lia ZArith ZifyBool ZifyNat ZifyN.
Local Open Scope N_scope.

Set Default Proof Using "Type".
(** ** Steps of stateful parsers *)
Lemma mb_ok {A B} (p : M A) (k : A -> M B) s i r a s1 x : p s i = (POk r a, s1) -> k a s1 r = x -> mbind p k s i = x.
Proof. intros H <-. unfold mbind. now rewrite H. Qed.
Lemma mb_lift {A B} (p : P A) (k : A -> M B) s i r a x : p i = POk r a -> k a s r = x -> mbind (lift p) k s i = x.
Proof. intros H <-. unfold mbind, lift. now rewrite H. Qed.
Lemma mcut_ok {A} (p : M A) s i r a s' : p s i = (POk r a, s') -> mcut p s i = (POk r a, s').
Proof. intros H. unfold mcut. now rewrite H. Qed.
Lemma mopt_ok {A} (p : M A) s i r a s' : p s i = (POk r a, s') -> mopt p s i = (POk r (Some a), s').
Proof. intros H. unfold mopt. now rewrite H. Qed.
Lemma mopt_no {A} (p : M A) s i e m s' : p s i = (PErr e m, s') -> mopt p s i = (POk i None, s').
Proof. intros H. unfold mopt. now rewrite H. Qed.
Lemma pb_ok {A B} (p : P A) (k : A -> P B) i r a x : p i = POk r a -> k a r = x -> pbind p k i = x.
Proof. intros H <-. unfold pbind. now rewrite H. Qed.
Lemma opt_no {A} (p : P A) i : is_perr (p i) -> opt p i = POk i None.
Proof. intros (e & m & H). unfold opt. now rewrite H. Qed.
Lemma opt_ok {A} (p : P A) i r a : p i = POk r a -> opt p i = POk r (Some a).
Proof. intros H. unfold opt. now rewrite H. Qed.
Lemma pb_perr {A B} (p : P A) (k : A -> P B) i : is_perr (p i) -> is_perr (pbind p k i).
Proof. intros (e & m & H). unfold pbind. rewrite H. exact (perr_i _ _). Qed.

(** What is left of the blanks after an element: all of them, or none. *)
Definition slack (b' b : str) : Prop := b' = b \/ b' = [].
Lemma slack_blanks b' b : slack b' b -> blanks b -> blanks b'.
Proof. intros [->| ->] H; auto. constructor. Qed.

(** ** Separated lists *)
Inductive seps {A B} (sep : P B) (p : M A) (s : pstate) : str -> list A -> str -> Prop :=
| seps_nil i : seps sep p s i [] i
| seps_cons i j x k a l r : sep i = POk j x -> (length j < length i)%nat -> p s j = (POk k a, s) -> (length k <= length j)%nat ->
    seps sep p s k l r -> seps sep p s i (a :: l) r.
Lemma seps_loop {A B} (sep : P B) (p : M A) s i l r : seps sep p s i l r -> is_perr (sep r) -> forall n, (length i < n)%nat ->
  msep_loop n sep p s i = (POk r l, s).
Proof.
  intros H E. induction H as [i|i j x k a l r H1 H2 H3 H4 H IH]; intros n Hn; (destruct n as [|n]; [lia|]); cbn [msep_loop].
  - destruct E as (e & m & ->). reflexivity.
  - rewrite H1. destruct (Nat.eqb_spec (length j) (length i)); [lia|]. rewrite H3. rewrite IH by (auto; lia). reflexivity.
Qed.
Lemma seps_many {A B} (sep : P B) (p : M A) s i l r : seps sep p s i l r -> is_perr (sep r) -> mmany0 (lift sep ;;-- p) s i = (POk r l, s).
Proof.
  intros H E. unfold mmany0. assert (G : forall n, (length i < n)%nat -> mmany0_fuel n (lift sep ;;-- p) s i = (POk r l, s)); [|apply G; lia].
  induction H as [i|i j x k a l r H1 H2 H3 H4 H IH]; intros n Hn; (destruct n as [|n]; [lia|]); cbn [mmany0_fuel].
  - unfold mbind at 1, lift at 1. destruct E as (e & m & ->). reflexivity.
  - rewrite (mb_lift sep (fun _ => p) s i j x _ H1 H3). destruct (Nat.eqb_spec (length k) (length i)); [lia|]. rewrite IH by (auto; lia). reflexivity.
Qed.
Lemma seps_list1 {A B} (sep : P B) (p : M A) s i a j l r : p s i = (POk j a, s) -> seps sep p s j l r -> is_perr (sep r) ->
  mseparated_list1 sep p s i = (POk r (a :: l), s).
Proof.
  intros H1 H2 E. unfold mseparated_list1. eapply mb_ok; [exact H1|]. eapply mb_ok; [exact (seps_loop sep p s j l r H2 E (S (length j)) ltac:(lia))|]. reflexivity.
Qed.
Section Texts.
  Context {X A B : Type} (sep : P B) (p : M A) (s : pstate) (f : X -> str) (g : X -> A) (okf : str -> str -> Prop) (sb sp : str) (tok : B).
  Hypothesis Hsep : forall b y, blanks b -> nohd is_ws y -> sep (b ++ sp ++ y) = POk y tok.
  Hypothesis Hsp : sp <> [].
  Hypothesis Hsb : forall y, okf sb (sp ++ y).
  Hypothesis Hbl : blanks sb.
  Definition rd (x : X) : Prop := forall b r, blanks b -> okf b r -> exists b', slack b' b /\ p s (f x ++ b ++ r) = (POk (b' ++ r) (g x), s).
  Definition ttail (l : list X) : str := concat (map (fun x => sb ++ sp ++ f x) l).
  Lemma seps_texts l b r : Forall rd l -> Forall (fun x => forall y, nohd is_ws (f x ++ y)) l -> blanks b -> okf b r ->
    exists b1 r1, ttail l ++ b ++ r = b1 ++ r1 /\ blanks b1 /\ okf b1 r1 /\
      forall b0, slack b0 b1 -> exists b', slack b' b /\ seps sep p s (b0 ++ r1) (map g l) (b' ++ r).
  Proof using Hsep Hsp Hsb Hbl.
    intros Hl Hw Hb Hr. induction l as [|x l IH]; cbn [ttail map concat].
    - exists b, r. repeat split; auto. intros b0 H0. exists b0. split; auto. constructor.
    - inversion Hl as [|? ? Hx Hl']; subst. inversion Hw as [|? ? Wx Hw']; subst. destruct (IH Hl' Hw') as (b1 & r1 & E & B1 & O1 & H1).
      exists sb, (sp ++ f x ++ b1 ++ r1). unfold ttail in E. split; [rewrite <- E, <- !app_assoc; reflexivity|]. repeat split; auto.
      intros b0 H0. destruct (Hx b1 r1 B1 O1) as (b2 & S2 & E2). destruct (H1 b2 S2) as (b' & S' & H'). exists b'. split; auto.
      econstructor; [apply Hsep; [eapply slack_blanks; eauto|apply Wx]| |exact E2| |exact H'].
      + rewrite !app_length. destruct sp; [congruence|cbn [length]; lia].
      + rewrite !app_length. destruct S2 as [->| ->]; cbn [length]; lia.
  Qed.
  (** The whole list. *)
  Lemma list_texts x l b r : rd x -> Forall rd l -> Forall (fun x => forall y, nohd is_ws (f x ++ y)) l -> blanks b -> okf b r ->
    exists j b', slack b' b /\ p s (f x ++ ttail l ++ b ++ r) = (POk j (g x), s) /\ seps sep p s j (map g l) (b' ++ r) /\
      (exists bj rj, j = bj ++ rj /\ blanks bj /\ ((l = [] /\ rj = r) \/ exists y, rj = sp ++ y)).
  Proof using Hsep Hsp Hsb Hbl.
    intros Hx Hl Hw Hb Hr. destruct l as [|y l].
    - cbn [ttail map concat app]. destruct (Hx b r Hb Hr) as (b' & S' & E). exists (b' ++ r), b'. repeat split; auto; [constructor|].
      exists b', r. repeat split; auto. eapply slack_blanks; eauto.
    - inversion Hl as [|? ? Hy Hl']; subst. inversion Hw as [|? ? Wy Hw']; subst. destruct (seps_texts l b r Hl' Hw' Hb Hr) as (b1 & r1 & E & B1 & O1 & H1).
      destruct (Hx sb (sp ++ f y ++ b1 ++ r1) Hbl (Hsb _)) as (b0 & S0 & E0). destruct (Hy b1 r1 B1 O1) as (b2 & S2 & E2). destruct (H1 b2 S2) as (b' & S' & H').
      exists (b0 ++ sp ++ f y ++ b1 ++ r1), b'. split; auto. split; [|split].
      + change (ttail (y :: l)) with ((sb ++ sp ++ f y) ++ ttail l). rewrite <- !app_assoc. rewrite E. exact E0.
      + cbn [map]. econstructor; [apply Hsep; [eapply slack_blanks; eauto|apply Wy]| |exact E2| |exact H'].
        * rewrite !app_length. destruct sp; [congruence|cbn [length]; lia].
        * rewrite !app_length. destruct S2 as [->| ->]; cbn [length]; lia.
      + exists b0, (sp ++ f y ++ b1 ++ r1). repeat split; eauto. eapply slack_blanks; eauto.
  Qed.
End Texts.

(** ** Characters *)
Lemma opt_char_yes c b i : blanks b -> nohd is_ws i -> is_ws c = false -> opt_char c (c :: b ++ i) = POk i true.
Proof.
  intros Hb Hi Hc. unfold opt_char, pmap. erewrite opt_ok; [reflexivity|].
  apply (pws_exact (pchar c) [] (c :: b ++ i) [c] b i c); auto; [constructor|]. unfold pchar, satisfy. now rewrite N.eqb_refl.
Qed.
Lemma opt_char_yes_b c b0 b i : blanks b0 -> blanks b -> nohd is_ws i -> is_ws c = false -> opt_char c (b0 ++ c :: b ++ i) = POk i true.
Proof.
  intros Hb0 Hb Hi Hc. unfold opt_char, pmap. erewrite opt_ok; [reflexivity|].
  apply (pws_exact (pchar c) b0 (c :: b ++ i) [c] b i c); auto. unfold pchar, satisfy. now rewrite N.eqb_refl.
Qed.
Lemma opt_char_no c b i : blanks b -> nohd is_ws i -> nohd (N.eqb c) i -> opt_char c (b ++ i) = POk (b ++ i) false.
Proof. intros Hb Hi Hc. unfold opt_char, pmap. rewrite opt_no; [reflexivity|]. apply pws_perr; auto. rewrite pchar_no by auto. exact (perr_i _ _). Qed.
Lemma opt_char_no0 c i : nohd is_ws i -> nohd (N.eqb c) i -> opt_char c i = POk i false.
Proof. intros Hi Hc. apply (opt_char_no c [] i); auto. constructor. Qed.
Lemma pws_char c b0 b i : blanks b0 -> blanks b -> nohd is_ws i -> is_ws c = false -> pws (pchar c) (b0 ++ c :: b ++ i) = POk i c.
Proof. intros. apply (pws_exact (pchar c) b0 (c :: b ++ i) [c] b i c); auto. unfold pchar, satisfy. now rewrite N.eqb_refl. Qed.
Lemma pws_cchar c b0 b i : blanks b0 -> blanks b -> nohd is_ws i -> is_ws c = false -> pws (cut (pchar c)) (b0 ++ c :: b ++ i) = POk i c.
Proof. intros. apply (pws_exact (cut (pchar c)) b0 (c :: b ++ i) [c] b i c); auto. unfold cut, pchar, satisfy. now rewrite N.eqb_refl. Qed.

(** ** What may follow a target *)
Definition tf (b r : str) : Prop :=
  nohd is_ws r /\ (forall c, In c [58; 40; 123; 46] -> nohd (N.eqb c) r) /\ (b = [] -> nohd id_tail r) /\ is_perr (keyword (lit "with") r).
Definition ts (b r : str) : Prop := tf b r /\ forall x, r <> lit "or" ++ x.

Section Target.
  Variable lc : N -> bool.
  Notation target_ok := (target_ok lc).
  Notation pattern_path := (pattern_path lc).

  (** Each alternative. *)
  Definition elem (d : nat) : M target := fun s i =>
    match st_nest s i with
    | (POk _ _, s1) =>
        match (match d with O => fun s _ => (PStuck, s) | S d' => target_parse_one lc (target_parse lc d') end) s1 i with
        | (POk r t, s2) => st_leave (POk r t, s2)
        | x => x
        end
    | (PErr e m, s1) => (PErr e m, s1) | (PFail e m, s1) => (PFail e m, s1) | (PStuck, s1) => (PStuck, s1)
    end.
  Lemma target_parse_eq d : target_parse lc d = mmap or_chain (mseparated_list1 (pws (tag (lit "or"))) (elem d)).
  Proof. destruct d; reflexivity. Qed.
  Definition up (s : pstate) : pstate := {| level := S (level s); loop_depth := loop_depth s |}.
  Lemma elem_ok d s i r t : (level s < MAX_DEPTH)%nat -> target_parse_one lc (target_parse lc d) (up s) i = (POk r t, up s) -> elem (S d) s i = (POk r t, s).
  Proof.
    intros L H. unfold elem, st_nest. destruct (Nat.leb_spec MAX_DEPTH (level s)); [lia|]. fold (up s). rewrite H. unfold st_leave. cbn [fst snd level up loop_depth]. destruct s. reflexivity.
  Qed.

  (** ** Literals and names *)
  Lemma tf_after b r : blanks b -> tf b r -> after_num (b ++ r).
  Proof.
    clear lc. intros Hb (H1 & H2 & H3 & _). split.
    - destruct Hb as [|c b Hc Hb]; [exact (H3 eq_refl)|]. cbn. destruct Hc as [<-|[<-|[<-|[<-|[]]]]]; reflexivity.
    - destruct Hb as [|c b Hc Hb].
      + cbn [app]. specialize (H2 46 ltac:(cbn; tauto)). destruct r as [|x [|y r]]; auto. intros ->. discriminate H2.
      + cbn [app]. destruct (b ++ r); auto. intros ->. destruct Hc as [|[|[|[|[]]]]]; discriminate.
  Qed.
  Lemma tf_id b r : blanks b -> tf b r -> nohd id_tail (b ++ r).
  Proof. intros Hb H. exact (proj1 (tf_after b r Hb H)). Qed.
  Lemma tf_ws b r : tf b r -> nohd is_ws r.
  Proof. intros H. apply H. Qed.
  Lemma tf_colon b r : blanks b -> tf b r -> is_perr ((pws (tag (lit "::")) ;;; identifier) (b ++ r)).
  Proof. intros Hb (H1 & H2 & _). apply colons_perr; auto. apply H2. cbn; tauto. Qed.

  Definition thead (c : N) : Prop := id_start c = true \/ is_dec c = true \/ In c [45; 34; 39; 58; 40].
  Lemma thead_not c : thead c -> forall d, In d [41; 44; 125; 32; 9; 13; 10; 61] -> (d =? c) = false.
  Proof. clear lc. intros H d Hd. destruct (N.eqb_spec d c) as [<-|]; auto. exfalso. unfold thead, id_start, is_upper, is_lower, is_dec in H. cbn in H, Hd. lia. Qed.
  Lemma thead_ws c : thead c -> is_ws c = false.
  Proof. clear lc. intros H. unfold is_ws. pose proof (thead_not c H) as K. rewrite !(N.eqb_sym c). rewrite !K by (cbn; tauto). reflexivity. Qed.
  Lemma signed_hd s : signed_number s -> exists c t, s = c :: t /\ (is_dec c = true \/ c = 45).
  Proof. clear lc. intros [H|(t & -> & H)]; [destruct (rust_number_hd s H) as (c & t & -> & Hc); eauto|eauto]. Qed.
  Lemma target_hd t : target_ok t -> exists c u, ttext t = c :: u /\ thead c.
  Proof.
    induction t as [s|p l IH|p l IH|s|s|s|s|p|l IH] using target_ind'; cbn [WriteSpec.target_ok ttext]; unfold thead.
    - intros (H & _). destruct (ident_hd s H) as (c & u & -> & C). eauto.
    - intros (H & _). destruct p as [|x p]; [cbn; do 2 eexists; split; [reflexivity|]; cbn; tauto|]. destruct H as ((H & _) & _).
      destruct (path_hd _ (lit "(" ++ sep_by (lit ", ") (map ttext l) ++ lit ")") H) as (c & u & -> & [C| ->]); do 2 eexists; (split; [reflexivity|]); cbn; tauto.
    - intros (((H & _) & _) & _). destruct (path_hd _ (lit " {" ++ sep_by (lit ", ") (map (fun x => if names (snd x) (fst x) then fst x else fst x ++ lit ": " ++ ttext (snd x)) l) ++ lit "}") H) as (c & u & -> & [C| ->]);
        do 2 eexists; (split; [reflexivity|]); cbn; tauto.
    - intros H. destruct (signed_hd s H) as (c & u & -> & [C| ->]); do 2 eexists; (split; [reflexivity|]); cbn; tauto.
    - intros _. do 2 eexists; (split; [reflexivity|]); cbn; tauto.
    - intros _. do 2 eexists; (split; [reflexivity|]); cbn; tauto.
    - intros [->| ->]; do 2 eexists; (split; [reflexivity|]); left; reflexivity.
    - intros ((H & _) & _). destruct (path_hd _ [] H) as (c & u & E & C). rewrite app_nil_r in E. rewrite E. destruct C as [C| ->]; do 2 eexists; (split; [reflexivity|]); cbn; tauto.
    - intros (L & H). destruct l as [|t l]; [cbn in L; lia|]. cbn [map]. rewrite sep_cons. destruct (is_or t) eqn:O; [cbn; do 2 eexists; split; [reflexivity|]; cbn; tauto|].
      inversion IH as [|? ? IHt _]; subst. destruct (IHt (proj1 H)) as (c & u & -> & C). cbn [app]. eauto.
  Qed.
  Definition etext (t : target) : str := if is_or t then lit "(" ++ ttext t ++ lit ")" else ttext t.
  Definition edepth (t : target) : nat := if is_or t then S (tdepth t) else tdepth t.
  Lemma etext_hd t : target_ok t -> exists c u, etext t = c :: u /\ thead c.
  Proof. intros H. unfold etext. destruct (is_or t); [|now apply target_hd]. cbn. do 2 eexists; split; [reflexivity|]. unfold thead. cbn; tauto. Qed.
  Lemma etext_ws t y : target_ok t -> nohd is_ws (etext t ++ y).
  Proof. intros H. destruct (etext_hd t H) as (c & u & -> & C). cbn. now apply thead_ws. Qed.
  Lemma ttext_ws t y : target_ok t -> nohd is_ws (ttext t ++ y).
  Proof. intros H. destruct (target_hd t H) as (c & u & -> & C). cbn. now apply thead_ws. Qed.
  Lemma ttext_chr d t y : target_ok t -> In d [41; 44; 125; 32; 9; 13; 10; 61] -> nohd (N.eqb d) (ttext t ++ y).
  Proof. intros H D. destruct (target_hd t H) as (c & u & -> & C). cbn. now apply thead_not. Qed.

  (** A text that starts with a name, a path or a parenthesis is no literal. *)
  Lemma keyword_no k x r : nohd id_tail r -> ident x -> x <> k -> keyword k (x ++ r) = PErr (x ++ r) None.
  Proof.
    clear lc. intros H1 H2 H3. unfold keyword. rewrite ident_read by auto. destruct (str_eqb k x) eqn:E; auto. apply str_eqb_eq in E. congruence.
  Qed.
  Lemma identifier_no i : nohd id_start i -> is_perr (identifier i).
  Proof. clear lc. intros H. unfold identifier, recognize, pbind, split_at_position1. destruct i as [|c i]; [exact (perr_i _ _)|]. cbn in *. rewrite H. exact (perr_i _ _). Qed.
  Lemma keyword_no0 k i : nohd id_start i -> is_perr (keyword k i).
  Proof. clear lc. intros H. unfold keyword. destruct (identifier_no i H) as (e & m & ->). exact (perr_i _ _). Qed.
  Lemma bool_no_word x r : nohd id_tail r -> ident x -> ~ is_bool x -> is_perr (bool_lit (x ++ r)).
  Proof. clear lc. intros H1 H2 H3. unfold bool_lit, por. unfold is_bool in H3. rewrite !keyword_no by (auto; intros ->; tauto). exact (perr_i _ _). Qed.
  Lemma bool_no0 i : nohd id_start i -> is_perr (bool_lit i).
  Proof. clear lc. intros H. unfold bool_lit, por. destruct (keyword_no0 (lit "false") i H) as (e & m & ->). now apply keyword_no0. Qed.
  Lemma lit_no i : nohd (fun c => is_dec c || (c =? 45)) i -> nohd (N.eqb 34) i -> nohd (N.eqb 39) i -> is_perr (bool_lit i) -> opt target_lit i = POk i None.
  Proof.
    clear lc. intros H1 H2 H3 H4. apply opt_no. unfold target_lit, por, pmap. destruct (no_str i H2) as (e1 & m1 & ->). destruct (no_char i H3) as (e2 & m2 & ->).
    destruct (no_num i H1) as (e3 & m3 & ->). destruct H4 as (e4 & m4 & ->). exact (perr_i _ _).
  Qed.
  Lemma lit_no_paren i : opt target_lit (40 :: i) = POk (40 :: i) None.
  Proof. clear lc. apply lit_no; try reflexivity. apply bool_no0. reflexivity. Qed.
  Lemma word_hd x r : ident x -> nohd (fun c => is_dec c || (c =? 45)) (x ++ r) /\ forall c, In c [34; 39; 40; 41; 123; 58; 44; 61] -> nohd (N.eqb c) (x ++ r).
  Proof.
    clear lc. intros H. destruct (ident_hd x H) as (c & t & -> & C). cbn [app nohd]. split; [revert C; unfold id_start, is_upper, is_lower, is_dec; lia|].
    intros d Hd. revert C. cbn in Hd. unfold id_start, is_upper, is_lower. lia.
  Qed.
  Lemma lit_no_word x r : nohd id_tail r -> ident x -> ~ is_bool x -> opt target_lit (x ++ r) = POk (x ++ r) None.
  Proof. clear lc. intros H1 H2 H3. destruct (word_hd x r H2) as (W1 & W2). apply lit_no; auto; try (apply W2; cbn; tauto). now apply bool_no_word. Qed.
  Lemma path_shape p : pattern_path p -> exists l, l <> [] /\ Forall ident l /\ (p = l \/ p = [] :: l) /\
    (forall s, p = [s] -> ~ lower_first lc s) /\ (forall x q, p = x :: q -> ~ is_bool x).
  Proof. intros (((l & H1 & H2 & H3) & H4) & H5). exists l. auto 10. Qed.
  Lemma path_cont l r : nohd id_tail r -> nohd id_tail (concat (map (fun y => lit "::" ++ y) l) ++ r).
  Proof. clear lc. intros H. destruct l; [exact H|reflexivity]. Qed.
  Lemma lit_no_path p r : pattern_path p -> nohd id_tail r -> opt target_lit (sep_by (lit "::") p ++ r) = POk (sep_by (lit "::") p ++ r) None.
  Proof.
    intros H Hr. destruct (path_shape p H) as (l & Hn & Hl & Hp & _ & Hb). destruct l as [|x l]; [congruence|]. inversion Hl as [|? ? Hx Hl']; subst.
    destruct Hp as [->| ->].
    - rewrite sep_cons, <- app_assoc. apply lit_no_word; auto; [now apply path_cont|]. eapply Hb; reflexivity.
    - change (sep_by (lit "::") ([] :: x :: l)) with (lit "::" ++ sep_by (lit "::") (x :: l)). apply lit_no; try reflexivity. apply bool_no0. reflexivity.
  Qed.
  Lemma path_ws p r : path_ok p -> nohd is_ws (sep_by (lit "::") p ++ r) /\ nohd (N.eqb 40) (sep_by (lit "::") p ++ r).
  Proof. clear lc.
    intros H. destruct (path_hd p r H) as (c & t & -> & C). cbn [nohd]. destruct C as [C| ->]; [|split; reflexivity]. split; [now apply id_not_ws|]. revert C. unfold id_start, is_upper, is_lower. lia.
  Qed.
  Lemma opt_path_ok p r : pattern_path p -> nohd id_tail r -> is_perr ((pws (tag (lit "::")) ;;; identifier) r) ->
    opt_path lc (sep_by (lit "::") p ++ r) = POk r (Some p).
  Proof.
    intros H Hr Hc. destruct (path_shape p H) as (l & Hn & Hl & Hp & Hlow & _). unfold opt_path. destruct Hp as [->| ->].
    - pose proof (poi_exact lc l [] r Hn Hl (or_introl eq_refl) Hr Hc) as E. cbn [app] in E. rewrite E. destruct l as [|x [|y l]]; [congruence| |reflexivity].
      specialize (Hlow x eq_refl). inversion Hl as [|? ? Hx _]; subst. destruct (ident_hd x Hx) as (c & t & -> & _). cbn in Hlow. destruct (lc c); [destruct (Hlow eq_refl)|reflexivity].
    - pose proof (poi_exact lc l [[]] r Hn Hl (or_intror eq_refl) Hr Hc) as E. cbn [app] in E. rewrite E. destruct l as [|x l]; [congruence|]. reflexivity.
  Qed.
  Lemma opt_path_no x r : ident x -> lower_first lc x -> nohd id_tail r -> is_perr ((pws (tag (lit "::")) ;;; identifier) r) ->
    opt_path lc (x ++ r) = POk (x ++ r) None.
  Proof.
    intros Hx Hl Hr Hc. unfold opt_path. pose proof (poi_exact lc [x] [] r ltac:(discriminate) ltac:(auto) (or_introl eq_refl) Hr Hc) as E. cbn [app sep_by] in E. rewrite E.
    destruct x as [|c x]; [destruct Hl|]. cbn in Hl. rewrite Hl. reflexivity.
  Qed.

  (** ** The induction *)
  Definition treads (t : target) : Prop := forall d s b r, (tdepth t <= d)%nat -> (tdepth t + level s <= MAX_DEPTH)%nat -> blanks b -> ts b r ->
    exists b', slack b' b /\ target_parse lc d s (ttext t ++ b ++ r) = (POk (b' ++ r) t, s).
  Definition telem (t : target) : Prop := forall d s b r, (edepth t <= d)%nat -> (edepth t + level s <= MAX_DEPTH)%nat -> blanks b -> tf b r ->
    exists b', slack b' b /\ elem d s (etext t ++ b ++ r) = (POk (b' ++ r) t, s).
  Lemma or_no b r : blanks b -> ts b r -> is_perr (pws (tag (lit "or")) (b ++ r)).
  Proof. clear lc. intros Hb ((H1 & _) & H2). apply pws_perr; auto. rewrite tag_fail by auto. exact (perr_i _ _). Qed.
  Lemma treads_of_elem t : is_or t = false -> telem t -> treads t.
  Proof.
    intros O H d s b r Hd Hl Hb Hr. unfold telem, edepth, etext in H. rewrite O in H. destruct (H d s b r Hd Hl Hb (proj1 Hr)) as (b' & S & E).
    exists b'. split; auto. rewrite target_parse_eq. unfold mmap. rewrite (seps_list1 _ _ s _ t (b' ++ r) [] (b' ++ r) E); [reflexivity|constructor|].
    destruct S as [->| ->]; [now apply or_no|]. cbn [app]. destruct Hr as ((H1 & _) & H2). apply pws_perr0; auto. rewrite tag_fail by auto. exact (perr_i _ _).
  Qed.
  Lemma max_list_in {X} (f : X -> nat) l x : In x l -> (f x <= max_list (map f l))%nat.
  Proof. clear lc. induction l as [|y l IH]; [intros []|]. cbn [map max_list]. intros [->|H]; [lia|]. specialize (IH H). lia. Qed.
  Lemma tdepth_pos t : target_ok t -> (1 <= tdepth t)%nat.
  Proof.
    induction t as [s|p l IH|p l IH|s|s|s|s|p|l IH] using target_ind'; cbn [tdepth WriteSpec.target_ok]; intros H; try lia.
    destruct H as (L & H). destruct l as [|t l]; [cbn in L; lia|]. cbn [map max_list]. inversion IH as [|? ? IHt _]; subst. specialize (IHt (proj1 H)). destruct (is_or t); lia.
  Qed.
  Lemma ts_stop c r : In c [44; 41; 125; 61] -> ts [] (c :: r).
  Proof.
    clear lc. intros H. assert (K : is_ws c = false /\ (forall d, In d [58; 40; 123; 46] -> (d =? c) = false) /\ id_tail c = false /\ id_start c = false /\ c <> 111).
    { cbn in H. destruct H as [<-|[<-|[<-|[<-|[]]]]]; (split; [reflexivity|]; split; [intros d Hd; cbn in Hd; intuition subst; reflexivity|]; repeat split; discriminate). }
    destruct K as (K1 & K2 & K3 & K4 & K5). split; [split; [exact K1|]; split; [exact K2|]; split; [intros _; exact K3|]; now apply keyword_no0|]. intros x [= E _]. congruence.
  Qed.
  Lemma tf_stop c r : In c [44; 41; 125; 61] -> tf [] (c :: r).
  Proof. intros H. exact (proj1 (ts_stop c r H)). Qed.
  Lemma tf_or y : tf (lit " ") (lit "or " ++ y).
  Proof.
    clear lc. split; [reflexivity|]. split; [intros d Hd; cbn in Hd; intuition subst; reflexivity|]. split; [discriminate|].
    change (lit "or " ++ y) with (lit "or" ++ lit " " ++ y). rewrite keyword_no; [exact (perr_i _ _)|reflexivity| |discriminate].
    exists 111, [114]. split; [reflexivity|]. split; [unfold ident_start; lia|]. constructor; [|constructor]. left. unfold ident_start. lia.
  Qed.
  Lemma comma_sep b y : blanks b -> nohd is_ws y -> pws (pchar 44) (b ++ lit ", " ++ y) = POk y 44.
  Proof. clear lc. intros Hb Hy. apply (pws_char 44 b (lit " ") y); auto. repeat constructor; cbn; tauto. Qed.
  Lemma or_sep b y : blanks b -> nohd is_ws y -> pws (tag (lit "or")) (b ++ lit "or " ++ y) = POk y (lit "or").
  Proof. clear lc. intros Hb Hy. apply (pws_exact (tag (lit "or")) b (lit "or " ++ y) (lit "or") (lit " ") y); auto; try reflexivity. repeat constructor; cbn; tauto. Qed.
  Lemma ttail_sep {X} (f : X -> str) l : ttail f [] (lit ", ") l = concat (map (fun y => lit ", " ++ y) (map f l)).
  Proof. clear lc. unfold ttail. rewrite map_map. reflexivity. Qed.
  Lemma ttail_or {X} (f : X -> str) l : ttail f (lit " ") (lit "or ") l = concat (map (fun y => lit " or " ++ y) (map f l)).
  Proof. clear lc. unfold ttail. rewrite map_map. reflexivity. Qed.
  Lemma comma_no c r : In c [41; 125] -> is_perr (pws (pchar 44) (c :: r)).
  Proof. clear lc. intros H. apply pws_perr0; [destruct H as [<-|[<-|[]]]; reflexivity|]. rewrite pchar_no; [exact (perr_i _ _)|]. destruct H as [<-|[<-|[]]]; reflexivity. Qed.
  Lemma slack_nil b' : slack b' [] -> b' = [].
  Proof. clear lc. intros [H|H]; exact H. Qed.
  Definition all_ok := fix all l := match l with [] => True | t :: l' => target_ok t /\ all l' end.
  Lemma all_ok_Forall l : all_ok l -> Forall target_ok l.
  Proof. induction l as [|t l IH]; intros H; constructor; [apply H|apply IH; apply H]. Qed.

  (** Reading the elements of a tuple, up to the closing bracket. *)
  Lemma tuple_elems d s t l c r : Forall (fun t => target_ok t /\ treads t) (t :: l) ->
    (max_list (map tdepth (t :: l)) <= d)%nat -> (max_list (map tdepth (t :: l)) + level s <= MAX_DEPTH)%nat -> In c [41; 125] ->
    exists j, target_parse lc d s (sep_by (lit ", ") (map ttext (t :: l)) ++ c :: r) = (POk j t, s) /\
      seps (pws (pchar 44)) (target_parse lc d) s j l (c :: r) /\ (l <> [] -> exists b y, blanks b /\ j = b ++ 44 :: y) /\ (l = [] -> j = c :: r).
  Proof.
    intros H Hd Hl Hc.
    assert (R : Forall (rd (target_parse lc d) s ttext (fun t => t) ts) (t :: l)).
    { rewrite Forall_forall in *. intros x Hx b q Hb Hq. pose proof (max_list_in tdepth (t :: l) x Hx) as K. apply (proj2 (H x Hx)); auto; lia. }
    inversion R as [|? ? Rt Rl]; subst.
    assert (W : Forall (fun x => forall y, nohd is_ws (ttext x ++ y)) l).
    { inversion H as [|? ? _ Hl']; subst. revert Hl'. apply Forall_impl. intros x (Hx & _) y. now apply ttext_ws. }
    destruct (list_texts (pws (pchar 44)) (target_parse lc d) s ttext (fun t => t) ts [] (lit ", ") 44) with (x := t) (l := l) (b := @nil N) (r := c :: r) as (j & b' & S' & E & F & bj & rj & Ej & Bj & Q); auto.
    - intros. now apply comma_sep.
    - discriminate.
    - intros y. apply (ts_stop 44). cbn; tauto.
    - constructor.
    - constructor.
    - apply ts_stop. destruct Hc as [<-|[<-|[]]]; cbn; tauto.
    - apply slack_nil in S'. subst b'. rewrite map_id in F. exists j. split; [|split; [exact F|]].
      + cbn [map]. rewrite sep_cons, <- app_assoc, <- ttail_sep. exact E.
      + split.
        * intros Hn. destruct Q as [(-> & _)|(y & ->)]; [congruence|]. exists bj, (32 :: y). auto.
        * intros ->. inversion F; subst; reflexivity.
  Qed.
  Lemma tuple_list d s t l b r : Forall (fun t => target_ok t /\ treads t) (t :: l) ->
    (max_list (map tdepth (t :: l)) <= d)%nat -> (max_list (map tdepth (t :: l)) + level s <= MAX_DEPTH)%nat ->
    blanks b -> nohd is_ws r ->
    (l <-- mcut (mseparated_list1 (pws (pchar 44)) (target_parse lc d)) ;; (lift (opt (pws (pchar 44))) ;;-- (lift (pws (cut (pchar 41))) ;;-- mret l))) s
      (sep_by (lit ", ") (map ttext (t :: l)) ++ 41 :: b ++ r) = (POk r (t :: l), s).
  Proof.
    intros H Hd Hl Hb Hr. destruct (tuple_elems d s t l 41 (b ++ r) H Hd Hl ltac:(cbn; auto)) as (j & E & F & _).
    eapply mb_ok; [apply mcut_ok; eapply seps_list1; [exact E|exact F|apply comma_no; cbn; auto]|].
    eapply mb_lift; [apply opt_no, comma_no; cbn; auto|]. eapply mb_lift; [apply (pws_cchar 41 [] b r); auto; constructor|]. reflexivity.
  Qed.

  (** Fields. *)
  Definition ftext (x : str * target) : str := if names (snd x) (fst x) then fst x else fst x ++ lit ": " ++ ttext (snd x).
  Definition field_ok (x : str * target) : Prop :=
    ident (fst x) /\ (snd x = TName (fst x) /\ ~ In (fst x) [lit "self"; lit "writer"] \/ target_ok (snd x)).
  Lemma verify_ok input n i : ~ In n [lit "self"; lit "writer"] -> verify_name input n i = POk i (TName n).
  Proof.
    clear lc. intros H. unfold verify_name. destruct (str_eqb n (lit "self")) eqn:E1; [apply str_eqb_eq in E1; subst; exfalso; apply H; cbn; auto|].
    destruct (str_eqb n (lit "writer")) eqn:E2; [apply str_eqb_eq in E2; subst; exfalso; apply H; cbn; auto|]. reflexivity.
  Qed.
  Lemma field_read d s x b r : field_ok x -> (target_ok (snd x) -> treads (snd x)) -> (tdepth (snd x) <= d)%nat -> (tdepth (snd x) + level s <= MAX_DEPTH)%nat ->
    blanks b -> ts b r -> exists b', slack b' b /\ target_named (target_parse lc d) s (ftext x ++ b ++ r) = (POk (b' ++ r) x, s).
  Proof.
    intros (Hi & Hx) Hr Hd Hl Hb Ht. destruct x as [n t]. cbn [fst snd] in *. unfold ftext. cbn [fst snd]. destruct (names t n) eqn:N.
    - assert (t = TName n) as -> by (destruct t; try discriminate; apply str_eqb_eq in N; now subst).
      assert (V : ~ In n [lit "self"; lit "writer"]) by (destruct Hx as [(_ & V)|(_ & _ & _ & V)]; exact V).
      exists b. split; [now left|]. unfold target_named. eapply mb_lift; [apply ident_read; auto; apply tf_id; auto; apply Ht|].
      destruct (pws_perr (pchar 58) b r Hb ltac:(apply Ht)) as (e & m & E). { rewrite pchar_no; [exact (perr_i _ _)|]. apply Ht. cbn; tauto. }
      eapply mb_ok; [eapply mopt_no; unfold mbind, lift; rewrite E; reflexivity|]. cbv iota beta. unfold lift, pmap. rewrite verify_ok by exact V. reflexivity.
    - destruct Hx as [(-> & _)|Hx]; [exfalso; cbn in N; rewrite str_eqb_refl in N; discriminate|].
      destruct (Hr Hx d s b r Hd Hl Hb Ht) as (b' & S & E). exists b'. split; auto. unfold target_named. rewrite <- !app_assoc.
      eapply mb_lift; [apply ident_read; [auto|reflexivity]|]. eapply mb_ok; [eapply mopt_ok; eapply mb_lift; [|exact E]|reflexivity].
      apply (pws_char 58 [] (lit " ") (ttext t ++ b ++ r)); [constructor|repeat constructor; cbn; tauto|now apply ttext_ws|reflexivity].
  Qed.
  Lemma ftext_ws x y : field_ok x -> nohd is_ws (ftext x ++ y).
  Proof. intros (Hi & _). unfold ftext. destruct (ident_hd _ Hi) as (c & t & -> & C). destruct (names _ _); cbn; now apply id_not_ws. Qed.
  Lemma ftext_chr x y c : field_ok x -> In c [34; 39; 40; 41; 123; 58; 44; 61; 125] -> nohd (N.eqb c) (ftext x ++ y).
  Proof.
    intros (Hi & _) Hc. unfold ftext. destruct (ident_hd _ Hi) as (d & t & -> & C).
    assert (K : (c =? d) = false) by (revert C; cbn in Hc; unfold id_start, is_upper, is_lower; lia). destruct (names _ _); exact K.
  Qed.
  Lemma struct_list d s x l b r : Forall (fun x => field_ok x /\ (target_ok (snd x) -> treads (snd x))) (x :: l) ->
    (max_list (map (fun x => tdepth (snd x)) (x :: l)) <= d)%nat -> (max_list (map (fun x => tdepth (snd x)) (x :: l)) + level s <= MAX_DEPTH)%nat ->
    blanks b -> nohd is_ws r ->
    (l <-- mcut (mseparated_list1 (pws (pchar 44)) (target_named (target_parse lc d))) ;; (lift (opt (pws (pchar 44))) ;;-- (lift (pws (cut (pchar 125))) ;;-- mret l))) s
      (sep_by (lit ", ") (map ftext (x :: l)) ++ 125 :: b ++ r) = (POk r (x :: l), s).
  Proof.
    intros H Hd Hl Hb Hr.
    assert (R : Forall (rd (target_named (target_parse lc d)) s ftext (fun t => t) ts) (x :: l)).
    { rewrite Forall_forall in *. intros y Hy b0 q Hb0 Hq. pose proof (max_list_in (fun x => tdepth (snd x)) (x :: l) y Hy) as K. cbv beta in K.
      destruct (H y Hy) as (H1 & H2). apply field_read; auto; lia. }
    inversion R as [|? ? Rt Rl]; subst.
    assert (W : Forall (fun x => forall y, nohd is_ws (ftext x ++ y)) l).
    { inversion H as [|? ? _ Hl']; subst. revert Hl'. apply Forall_impl. intros y (Hy & _) z. now apply ftext_ws. }
    destruct (list_texts (pws (pchar 44)) (target_named (target_parse lc d)) s ftext (fun t => t) ts [] (lit ", ") 44) with (x := x) (l := l) (b := @nil N) (r := 125 :: b ++ r) as (j & b' & S' & E & F & _); auto.
    - intros. now apply comma_sep.
    - discriminate.
    - intros y. apply (ts_stop 44). cbn; tauto.
    - constructor.
    - constructor.
    - apply ts_stop. cbn; tauto.
    - apply slack_nil in S'. subst b'. rewrite map_id in F. cbn [map]. rewrite sep_cons, <- app_assoc, <- ttail_sep.
      eapply mb_ok; [apply mcut_ok; eapply seps_list1; [exact E|exact F|apply comma_no; cbn; auto]|].
      eapply mb_lift; [apply opt_no, comma_no; cbn; auto|]. eapply mb_lift; [apply (pws_cchar 125 [] b r); auto; constructor|]. reflexivity.
  Qed.

  (** Literals. *)
  Lemma elem_lit t txt d s b r : opt target_lit (txt ++ b ++ r) = POk (b ++ r) (Some t) -> (1 <= d)%nat -> (1 + level s <= MAX_DEPTH)%nat ->
    exists b', slack b' b /\ elem d s (txt ++ b ++ r) = (POk (b' ++ r) t, s).
  Proof.
    intros H Hd Hl. exists b. split; [now left|]. destruct d as [|d]; [lia|]. apply elem_ok; [lia|]. unfold target_parse_one. eapply mb_lift; [exact H|reflexivity].
  Qed.
  Lemma bool_read x r : nohd id_tail r -> is_bool x -> bool_lit (x ++ r) = POk r x.
  Proof.
    clear lc. intros Hr Hx. assert (Hi : ident (lit "false") /\ ident (lit "true")).
    { split; [exists 102, (lit "alse")|exists 116, (lit "rue")]; (split; [reflexivity|]; split; [unfold ident_start; lia|]); apply Forall_forall; intros c Hc; cbn in Hc; left; unfold ident_start; lia. }
    unfold bool_lit, por, keyword. destruct Hx as [->| ->]; rewrite ident_read by (auto; apply Hi); reflexivity.
  Qed.
  Lemma after_of_tf b r : blanks b -> tf b r -> after_num (b ++ r).
  Proof. apply tf_after. Qed.
  Lemma telem_num x : signed_number x -> telem (TNumLit x).
  Proof.
    intros H d s b r Hd Hl Hb Hr. apply elem_lit; auto. apply opt_ok. unfold etext. cbn [is_or ttext]. destruct (signed_hd x H) as (c & t & E & C).
    unfold target_lit, por, pmap.
    assert (K : nohd (N.eqb 34) (x ++ b ++ r) /\ nohd (N.eqb 39) (x ++ b ++ r)).
    { rewrite E. cbn [app nohd]. destruct C as [C| ->]; [|split; reflexivity]. revert C. unfold is_dec. lia. }
    destruct (no_str _ (proj1 K)) as (e1 & m1 & ->). destruct (no_char _ (proj2 K)) as (e2 & m2 & ->). rewrite (signed_complete x (b ++ r) H) by (now apply after_of_tf). reflexivity.
  Qed.
  Lemma telem_str x : quoted 34 x -> telem (TStrLit x).
  Proof.
    intros H d s b r Hd Hl Hb Hr. apply elem_lit; auto. apply opt_ok. unfold etext. cbn [is_or ttext]. unfold target_lit, por, pmap.
    change (lit """" ++ x ++ lit """") with (34 :: x ++ [34]). cbn [app]. rewrite <- app_assoc. cbn [app]. rewrite (str_lit_complete x (b ++ r) H). reflexivity.
  Qed.
  Lemma telem_char x : char_text x -> telem (TCharLit x).
  Proof.
    intros H d s b r Hd Hl Hb Hr. apply elem_lit; auto. apply opt_ok. unfold etext. cbn [is_or ttext]. unfold target_lit, por, pmap.
    change (lit "'" ++ x ++ lit "'") with (39 :: x ++ [39]). cbn [app]. rewrite <- app_assoc. cbn [app].
    destruct (no_str (39 :: x ++ 39 :: b ++ r) eq_refl) as (e1 & m1 & ->). rewrite (char_lit_complete x (b ++ r) H). reflexivity.
  Qed.
  Lemma telem_bool x : is_bool x -> telem (TBoolLit x).
  Proof.
    intros H d s b r Hd Hl Hb Hr. apply elem_lit; auto. apply opt_ok. unfold etext. cbn [is_or ttext]. unfold target_lit, por, pmap.
    assert (K : nohd (N.eqb 34) (x ++ b ++ r) /\ nohd (N.eqb 39) (x ++ b ++ r) /\ nohd (fun c => is_dec c || (c =? 45)) (x ++ b ++ r)) by (destruct H as [->| ->]; repeat split; reflexivity).
    destruct K as (K1 & K2 & K3). destruct (no_str _ K1) as (e1 & m1 & ->). destruct (no_char _ K2) as (e2 & m2 & ->). destruct (no_num _ K3) as (e3 & m3 & ->).
    rewrite bool_read; auto. now apply tf_id.
  Qed.
  Lemma telem_name x : target_ok (TName x) -> telem (TName x).
  Proof.
    intros (H1 & H2 & H3 & H4) d s b r Hd Hl Hb Hr. unfold etext, edepth in *. cbn [is_or ttext tdepth] in *. exists b. split; [now left|].
    destruct d as [|d]; [lia|]. apply elem_ok; [lia|]. unfold target_parse_one. pose proof (tf_id b r Hb Hr) as Hi.
    eapply mb_lift; [now apply lit_no_word|]. cbv iota beta. eapply mb_lift; [apply opt_char_no0|].
    - destruct (ident_hd x H1) as (c & t & -> & C). cbn. now apply id_not_ws.
    - apply (word_hd x (b ++ r) H1). cbn; tauto.
    - cbv iota beta. eapply mb_lift; [apply opt_path_no; auto; now apply tf_colon|]. cbv iota beta.
      eapply mb_lift; [now apply ident_read|]. unfold lift. rewrite verify_ok by auto. reflexivity.
  Qed.
  Lemma with_no b r : blanks b -> nohd is_ws r -> is_perr (keyword (lit "with") r) -> opt (pws (keyword (lit "with"))) (b ++ r) = POk (b ++ r) None.
  Proof. clear lc. intros. apply opt_no, pws_perr; auto. Qed.
  (** The steps up to the path. *)
  Lemma one_path p parse s y x : pattern_path p -> nohd id_tail y -> is_perr ((pws (tag (lit "::")) ;;; identifier) y) ->
    (lift (opt (pws (keyword (lit "with")))) ;;--
               (unnamed <-- lift (opt_char 40) ;;
                if unnamed : bool then
                  lift (pmap (fun _ => TTuple p []) (pchar 41)) <||>
                  (l <-- mcut (mseparated_list1 (pws (pchar 44)) parse) ;;
                   (lift (opt (pws (pchar 44))) ;;-- (lift (pws (cut (pchar 41))) ;;-- mret (TTuple p l))))
                else
                  named <-- lift (opt_char 123) ;;
                  if named : bool then
                    lift (pmap (fun _ => TStruct p []) (pchar 125)) <||>
                    (l <-- mcut (mseparated_list1 (pws (pchar 44)) (target_named parse)) ;;
                     (lift (opt (pws (pchar 44))) ;;-- (lift (pws (cut (pchar 125))) ;;-- mret (TStruct p l))))
                  else fun s _ => (POk y (TPath p), s))) s y = x ->
    target_parse_one lc parse s (sep_by (lit "::") p ++ y) = x.
  Proof.
    intros Hp Hy Hc H. assert (P : path_ok p) by apply Hp. destruct (path_ws p y P) as (W1 & W2). unfold target_parse_one.
    eapply mb_lift; [now apply lit_no_path|]. cbv iota beta. eapply mb_lift; [now apply opt_char_no0|]. cbv iota beta.
    eapply mb_lift; [now apply opt_path_ok|]. cbv iota beta. exact H.
  Qed.
  Lemma telem_path p : pattern_path p -> telem (TPath p).
  Proof.
    intros Hp d s b r Hd Hl Hb Hr. unfold etext, edepth in *. cbn [is_or ttext tdepth] in *. exists b. split; [now left|].
    destruct d as [|d]; [lia|]. apply elem_ok; [lia|]. apply one_path; auto; [now apply tf_id|now apply tf_colon|].
    eapply mb_lift; [apply with_no; auto; apply Hr|]. eapply mb_lift; [apply opt_char_no; auto; apply Hr; cbn; tauto|]. cbv iota beta.
    eapply mb_lift; [apply opt_char_no; auto; apply Hr; cbn; tauto|]. reflexivity.
  Qed.
  Lemma mor_lift_no {A} (p : P A) (q : M A) s i x : is_perr (p i) -> q s i = x -> mor (lift p) q s i = x.
  Proof. clear lc. intros (e & m & H) <-. unfold mor, lift. now rewrite H. Qed.
  Lemma mor_lift_ok {A} (p : P A) (q : M A) s i r a : p i = POk r a -> mor (lift p) q s i = (POk r a, s).
  Proof. clear lc. intros H. unfold mor, lift. now rewrite H. Qed.
  Lemma char_no_perr c i : nohd (N.eqb c) i -> is_perr (pchar c i).
  Proof. clear lc. intros H. rewrite pchar_no by auto. exact (perr_i _ _). Qed.
  Lemma pmap_perr {A B} (f : A -> B) p i : is_perr (p i) -> is_perr (pmap f p i).
  Proof. clear lc. intros (e & m & H). unfold pmap. rewrite H. exact (perr_i _ _). Qed.
  Lemma mb_assoc {A B C} (p : M A) (k : A -> M B) (g : B -> C) s i x r s' : (a <-- p ;; k a) s i = (POk r x, s') -> (a <-- p ;; (b <-- k a ;; mret (g b))) s i = (POk r (g x), s').
  Proof.
    clear lc. unfold mbind. destruct (p s i) as [[r1 a|e m|e m|] s1]; try discriminate. intros H. rewrite H. reflexivity.
  Qed.
  Lemma max_tuple {X} (f : X -> nat) l d s : (S (max_list (map f l)) <= S d)%nat -> (S (max_list (map f l)) + level s <= MAX_DEPTH)%nat ->
    (max_list (map f l) <= d)%nat /\ (max_list (map f l) + level (up s) <= MAX_DEPTH)%nat.
  Proof. clear lc. cbn [up level]. lia. Qed.

  Lemma telem_tuple p l : target_ok (TTuple p l) -> Forall (fun t => target_ok t /\ treads t) l -> telem (TTuple p l).
  Proof.
    intros (Hp & _) HF d s b r Hd Hl Hb Hr. unfold etext, edepth in *. cbn [is_or ttext tdepth] in *.
    destruct d as [|d]; [lia|]. destruct (max_tuple _ _ _ _ Hd Hl) as (Md & Ml). pose proof (tf_ws _ _ Hr) as Hw.
    destruct p as [|x p].
    - exists []. split; [now right|]. cbn [app]. apply elem_ok; [lia|].
      assert (TX : (sep_by (lit "::") [] ++ lit "(" ++ sep_by (lit ", ") (map ttext l) ++ lit ")") ++ b ++ r = 40 :: sep_by (lit ", ") (map ttext l) ++ 41 :: b ++ r)
        by (change (sep_by (lit "::") []) with (@nil N); change (lit "(") with [40]; change (lit ")") with [41]; cbn [app]; rewrite <- app_assoc; reflexivity).
      rewrite TX. clear TX. unfold target_parse_one. eapply mb_lift; [apply lit_no_paren|]. cbv iota beta. destruct l as [|t [|t' l]]; [| cbn in Hp; congruence|].
      + cbn [map sep_by app]. eapply mb_lift; [apply (opt_char_yes 40 [] (41 :: b ++ r)); [constructor|reflexivity|reflexivity]|]. cbv iota beta.
        eapply mb_lift; [apply (opt_char_yes 41 b r); auto|]. reflexivity.
      + destruct (tuple_elems d (up s) t (t' :: l) 41 (b ++ r) HF Md Ml ltac:(cbn; auto)) as (j & E & F & Hj & _).
        inversion HF as [|? ? (Ht & _) _]; subst.
        assert (W : nohd is_ws (sep_by (lit ", ") (map ttext (t :: t' :: l)) ++ 41 :: b ++ r) /\ nohd (N.eqb 41) (sep_by (lit ", ") (map ttext (t :: t' :: l)) ++ 41 :: b ++ r)).
        { cbn [map]. rewrite sep_cons, <- app_assoc. split; [now apply ttext_ws|]. apply ttext_chr; auto. cbn; auto. }
        eapply mb_lift; [apply (opt_char_yes 40 [] _); [constructor|apply W|reflexivity]|]. cbv iota beta.
        eapply mb_lift; [apply opt_char_no0; apply W|]. cbv iota beta. eapply mb_ok; [exact E|].
        destruct (Hj ltac:(discriminate)) as (bj & y & Bj & ->). eapply mb_lift; [apply opt_char_no; [exact Bj|reflexivity|reflexivity]|]. cbv iota beta.
        apply mcut_ok. eapply mb_ok; [eapply seps_many; [exact F|apply comma_no; cbn; auto]|].
        eapply mb_lift; [apply opt_no, comma_no; cbn; auto|]. eapply mb_lift; [apply (pws_cchar 41 [] b r); auto; constructor|]. reflexivity.
    - rewrite <- !app_assoc. destruct l as [|t l].
      + exists b. split; [now left|]. apply elem_ok; [lia|]. apply one_path; [exact Hp|reflexivity|apply (colons_perr [] _); [constructor|reflexivity|reflexivity]|].
        eapply mb_lift; [apply opt_no, pws_perr0; [reflexivity|apply keyword_no0; reflexivity]|].
        eapply mb_lift; [apply (opt_char_yes 40 [] (41 :: b ++ r)); [constructor|reflexivity|reflexivity]|]. cbv iota beta. apply mor_lift_ok. reflexivity.
      + exists []. split; [now right|]. apply elem_ok; [lia|]. inversion HF as [|? ? (Ht & _) _]; subst.
        assert (W : nohd is_ws (sep_by (lit ", ") (map ttext (t :: l)) ++ lit ")" ++ b ++ r) /\ nohd (N.eqb 41) (sep_by (lit ", ") (map ttext (t :: l)) ++ lit ")" ++ b ++ r)).
        { cbn [map]. rewrite sep_cons, <- app_assoc. split; [now apply ttext_ws|]. apply ttext_chr; auto. cbn; auto. }
        apply one_path; [exact Hp|reflexivity|apply (colons_perr [] _); [constructor|reflexivity|reflexivity]|].
        eapply mb_lift; [apply opt_no, pws_perr0; [reflexivity|apply keyword_no0; reflexivity]|].
        eapply mb_lift; [apply (opt_char_yes 40 [] _); [constructor|apply W|reflexivity]|]. cbv iota beta.
        apply mor_lift_no; [apply pmap_perr, char_no_perr; apply W|].
        pose proof (tuple_list d (up s) t l b r HF Md Ml Hb Hw) as K. cbn [app]. revert K. unfold mbind, mret. clear.
        change (lit ")" ++ b ++ r) with (41 :: b ++ r).
        destruct (mcut _ (up s) _) as [[r1 a|e m|e m|] s1]; try discriminate. destruct (lift (opt _) s1 r1) as [[r2 a2|e m|e m|] s2]; try discriminate.
        destruct (lift (pws _) s2 r2) as [[r3 a3|e m|e m|] s3]; try discriminate. congruence.
  Qed.
  Lemma telem_struct p l : target_ok (TStruct p l) -> Forall (fun x => field_ok x /\ (target_ok (snd x) -> treads (snd x))) l -> telem (TStruct p l).
  Proof.
    intros (Hp & _) HF d s b r Hd Hl Hb Hr. unfold etext, edepth in *. cbn [is_or ttext tdepth] in *.
    destruct d as [|d]; [lia|]. destruct (max_tuple _ _ _ _ Hd Hl) as (Md & Ml). pose proof (tf_ws _ _ Hr) as Hw. fold ftext. rewrite <- !app_assoc.
    assert (B1 : blanks (lit " ")) by (repeat constructor; cbn; tauto).
    assert (S1 : forall y, nohd id_tail (lit " {" ++ y) /\ is_perr ((pws (tag (lit "::")) ;;; identifier) (lit " {" ++ y)) /\
       opt (pws (keyword (lit "with"))) (lit " {" ++ y) = POk (lit " {" ++ y) None /\ opt_char 40 (lit " {" ++ y) = POk (lit " {" ++ y) false).
    { intros y. change (lit " {" ++ y) with (lit " " ++ 123 :: y). split; [reflexivity|]. split; [apply colons_perr; auto; reflexivity|]. split.
      - apply with_no; [exact B1|reflexivity|]. apply keyword_no0. reflexivity.
      - apply opt_char_no; [exact B1|reflexivity|reflexivity]. }
    destruct l as [|x l].
    - exists b. split; [now left|]. apply elem_ok; [lia|]. cbn [map sep_by app]. destruct (S1 (lit "}" ++ b ++ r)) as (S2 & S3 & S4 & S5).
      apply one_path; [exact Hp|exact S2|exact S3|]. eapply mb_lift; [exact S4|]. eapply mb_lift; [exact S5|]. cbv iota beta.
      eapply mb_lift; [apply (opt_char_yes_b 123 (lit " ") [] (125 :: b ++ r)); [exact B1|constructor|reflexivity|reflexivity]|]. cbv iota beta. apply mor_lift_ok. reflexivity.
    - exists []. split; [now right|]. apply elem_ok; [lia|]. inversion HF as [|? ? (Ht & _) _]; subst.
      assert (W : nohd is_ws (sep_by (lit ", ") (map ftext (x :: l)) ++ lit "}" ++ b ++ r) /\ nohd (N.eqb 125) (sep_by (lit ", ") (map ftext (x :: l)) ++ lit "}" ++ b ++ r)).
      { cbn [map]. rewrite sep_cons, <- app_assoc. split; [now apply ftext_ws|]. apply ftext_chr; auto. cbn; tauto. }
      destruct (S1 (sep_by (lit ", ") (map ftext (x :: l)) ++ lit "}" ++ b ++ r)) as (S2 & S3 & S4 & S5).
      apply one_path; [exact Hp|exact S2|exact S3|]. eapply mb_lift; [exact S4|]. eapply mb_lift; [exact S5|]. cbv iota beta.
      eapply mb_lift; [apply (opt_char_yes_b 123 (lit " ") [] _); [exact B1|constructor|apply W|reflexivity]|]. cbv iota beta.
      apply mor_lift_no; [apply pmap_perr, char_no_perr; apply W|].
      pose proof (struct_list d (up s) x l b r HF Md Ml Hb Hw) as K. cbn [app]. revert K. unfold mbind, mret. clear.
      change (lit "}" ++ b ++ r) with (125 :: b ++ r).
      destruct (mcut _ (up s) _) as [[r1 a|e m|e m|] s1]; try discriminate. destruct (lift (opt _) s1 r1) as [[r2 a2|e m|e m|] s2]; try discriminate.
      destruct (lift (pws _) s2 r2) as [[r3 a3|e m|e m|] s3]; try discriminate. congruence.
  Qed.
  (** A parenthesised chain of alternatives. *)
  Lemma telem_of_reads t : is_or t = true -> target_ok t -> treads t -> telem t.
  Proof.
    intros O Ht H d s b r Hd Hl Hb Hr. unfold etext, edepth in *. rewrite O in *. pose proof (tf_ws _ _ Hr) as Hw. exists []. split; [now right|]. cbn [app].
    destruct d as [|d]; [lia|]. apply elem_ok; [lia|]. rewrite <- !app_assoc. destruct (H d (up s) [] (41 :: b ++ r)) as (b' & S' & E); [lia|cbn [up level]; lia|constructor|apply ts_stop; cbn; tauto|].
    apply slack_nil in S'. subst b'. cbn [app] in E. unfold target_parse_one. eapply mb_lift; [apply lit_no_paren|]. cbv iota beta.
    eapply mb_lift; [apply (opt_char_yes 40 [] _); [constructor|now apply ttext_ws|reflexivity]|]. cbv iota beta.
    eapply mb_lift; [apply opt_char_no0; [now apply ttext_ws|apply ttext_chr; auto; cbn; tauto]|]. cbv iota beta. eapply mb_ok; [exact E|].
    eapply mb_lift; [apply (opt_char_yes 41 b r); auto|]. reflexivity.
  Qed.
  Lemma treads_or l : target_ok (TOrChain l) -> Forall (fun t => target_ok t /\ telem t) l -> treads (TOrChain l).
  Proof.
    intros (L & _) HF d s b r Hd Hl Hb Hr. destruct l as [|t [|t' l]]; [cbn in L; lia|cbn in L; lia|]. cbn [ttext tdepth] in *. fold etext in *. fold edepth in *.
    assert (R : Forall (rd (elem d) s etext (fun t => t) (fun b r => tf b r)) (t :: t' :: l)).
    { rewrite Forall_forall in *. intros x Hx b0 q Hb0 Hq. pose proof (max_list_in edepth (t :: t' :: l) x Hx) as K. apply (proj2 (HF x Hx)); auto; lia. }
    inversion R as [|? ? Rt Rl]; subst.
    assert (W : Forall (fun x => forall y, nohd is_ws (etext x ++ y)) (t' :: l)).
    { inversion HF as [|? ? _ Hl']; subst. revert Hl'. apply Forall_impl. intros y (Hy & _) z. now apply etext_ws. }
    destruct (list_texts (pws (tag (lit "or"))) (elem d) s etext (fun t => t) (fun b r => tf b r) (lit " ") (lit "or ") (lit "or")) with (x := t) (l := t' :: l) (b := b) (r := r) as (j & b' & S' & E & F & _); auto.
    - intros. now apply or_sep.
    - discriminate.
    - intros y. apply tf_or.
    - repeat constructor; cbn; tauto.
    - apply Hr.
    - rewrite map_id in F. exists b'. split; auto. change (map (fun t0 => if is_or t0 then lit "(" ++ ttext t0 ++ lit ")" else ttext t0) (t :: t' :: l)) with (map etext (t :: t' :: l)).
      cbn [map]. rewrite sep_cons. change (etext t' :: map etext l) with (map etext (t' :: l)). rewrite <- ttail_or, <- app_assoc.
      rewrite target_parse_eq. unfold mmap. rewrite (seps_list1 _ _ s _ t j (t' :: l) (b' ++ r) E F); [reflexivity|].
      destruct S' as [->| ->]; [now apply or_no|]. cbn [app]. destruct Hr as ((H1 & _) & H2). apply pws_perr0; auto. rewrite tag_fail by auto. exact (perr_i _ _).
  Qed.
  Theorem target_reads t : target_ok t -> treads t /\ telem t.
  Proof.
    induction t as [s|p l IH|p l IH|s|s|s|s|p|l IH] using target_ind'; intros H.
    - pose proof (telem_name s H). split; auto. now apply treads_of_elem.
    - assert (telem (TTuple p l)); [|split; auto; now apply treads_of_elem]. apply telem_tuple; auto. destruct H as (_ & H). apply all_ok_Forall in H.
      rewrite Forall_forall in *. intros x Hx. split; [|apply IH]; auto.
    - assert (telem (TStruct p l)); [|split; auto; now apply treads_of_elem]. apply telem_struct; auto. destruct H as (_ & H). revert IH. clear - H.
      induction l as [|x l IHl]; intros IH; constructor; inversion IH as [|? ? IHx IHr]; subst; [|apply IHl; [apply H|exact IHr]]. destruct H as (H1 & H2 & _). split; [now split|]. intros K. apply IHx, K.
    - pose proof (telem_num s H). split; auto. now apply treads_of_elem.
    - pose proof (telem_str s H). split; auto. now apply treads_of_elem.
    - pose proof (telem_char s H). split; auto. now apply treads_of_elem.
    - pose proof (telem_bool s H). split; auto. now apply treads_of_elem.
    - pose proof (telem_path p H). split; auto. now apply treads_of_elem.
    - assert (treads (TOrChain l)); [|split; auto; now apply telem_of_reads]. apply treads_or; auto. destruct H as (_ & H). apply all_ok_Forall in H.
      rewrite Forall_forall in *. intros x Hx. split; [|apply IH]; auto.
  Qed.
End Target.
