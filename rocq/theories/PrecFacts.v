(** * Written expressions are read back. *)
From Verif Require Import Base Config ConfigFacts Nom Ws Ast Lex ParseExpr NomFacts LexFacts LitSpec LitFacts ParseSpec TreeSpec ExprFacts WsFacts TextFacts PrecSpec LitComplete SimExpr.
From Coq Require Import Lia ZArith ZifyBool ZifyNat ZifyN.
Local Open Scope N_scope.

Set Default Proof Using "Type".
(** ** Repetition *)
Inductive steps {A} (p : P A) : str -> list A -> str -> Prop :=
| steps_nil i : steps p i [] i
| steps_cons i j a l r : p i = POk j a -> (length j < length i)%nat -> steps p j l r -> steps p i (a :: l) r.
Lemma steps_snoc {A} (p : P A) i l j a r : steps p i l j -> p j = POk r a -> (length r < length j)%nat -> steps p i (l ++ [a]) r.
Proof.
  induction 1 as [i|i j a' l k H1 H2 H IH]; intros E L; cbn [app].
  - econstructor; eauto. constructor.
  - econstructor; eauto.
Qed.
Lemma many0_steps {A} (p : P A) i l r : steps p i l r -> is_perr (p r) -> many0 p i = POk r l.
Proof.
  intros H E. unfold many0. assert (G : forall n, (length i < n)%nat -> many0_fuel n p i = POk r l).
  { induction H as [i|i j a l r H1 H2 H IH]; intros n Hn; (destruct n as [|n]; [lia|]); cbn [many0_fuel].
    - destruct E as (x & m & ->). reflexivity.
    - rewrite H1. destruct (Nat.eqb_spec (length j) (length i)); [lia|]. rewrite IH by (auto; lia). reflexivity. }
  apply G. lia.
Qed.

Lemma perr_i {A} e m : is_perr (@PErr A e m).
Proof. exists e, m. reflexivity. Qed.
Lemma nohd_imp (f g : N -> bool) i : (forall c, g c = true -> f c = true) -> nohd f i -> nohd g i.
Proof. intros H. destruct i as [|c i]; auto. unfold nohd. intros F. destruct (g c) eqn:G; auto. rewrite (H c G) in F. discriminate. Qed.

(** ** The layers *)
Section Round.
  Variable lc : N -> bool.
  Notation pe := (pe lc).
  Definition ops_of (k : nat) : P str :=
    match k with
    | 1%nat => tag (lit "||") | 2%nat => tag (lit "&&")
    | 3%nat => tag (lit "==") <|> tag (lit "!=") <|> tag (lit ">=") <|> tag (lit ">") <|> tag (lit "<=") <|> tag (lit "<")
    | 4%nat => tag (lit "|") | 5%nat => tag (lit "^") | 6%nat => tag (lit "&") | 7%nat => tag (lit ">>") <|> tag (lit "<<")
    | 8%nat => tag (lit "+") <|> tag (lit "-") | 9%nat => tag (lit "*") <|> tag (lit "/") <|> tag (lit "%")
    | _ => perr
    end.
  (** The parser of strength [k] with [r] levels left. *)
  Definition lp (k r : nat) : P expr :=
    match k with
    | 0%nat => pe r NtParse | 1%nat => pe r NtOr | 2%nat => pe r NtAnd | 3%nat => pe r NtCompare | 4%nat => pe r NtBor | 5%nat => pe r NtBxor
    | 6%nat => pe r NtBand | 7%nat => pe r NtShifts | 8%nat => pe r NtAddsub | 9%nat => pe r NtMuldivmod | 10%nat => pe r NtFiltered
    | 11%nat => pe r NtPrefix | 12%nat => pe r NtSuffix | _ => pe r NtSingle
    end.
  Definition body (k r : nat) : P (str * expr) := op <- pws (ops_of k) ;; (r <- lp (S k) r ;; pret (op, r)).
  Definition bin (l : expr) (x : str * expr) : expr := let '(op, r) := x in BinOp op l r.
  Lemma lp_layer k r : (1 <= k <= 9)%nat -> lp k (S r) = layer (ops_of k) (lp (S k) r).
  Proof. intros H. do 10 (destruct k as [|k]; [first [lia|reflexivity]|]). lia. Qed.
  Definition pre_op : P str := pws (tag (lit "!") <|> tag (lit "-")).
  Definition suf (r : nat) : P suffix_kind :=
    suffix_attr <|> pmap SIndex (pe r NtIndex) <|> pmap SCall (pe r NtCall) <|> suffix_try <|> suffix_macro.
  Definition range_right (r : nat) : P (str * option expr) :=
    op <- pws (tag (lit "..=") <|> tag (lit "..")) ;; (e <- opt (pe r NtOr) ;; pret (op, e)).

  Lemma pe_parse r : pe (S r) NtParse = (pmap (fun '(op, e) => Range op None e) (range_right r) <|>
            (left <- pe r NtOr ;;
             (right <- opt (range_right r) ;;
              pret (match right with Some (op, e) => Range op (Some left) e | None => left end)))).
  Proof. reflexivity. Qed.
  Lemma pe_filtered r : pe (S r) NtFiltered = (obj <- pe r NtPrefix ;;
            (filters <- many0 (filter (pe r (NtArguments false))) ;; pret (fold_left apply_filter filters obj))).
  Proof. reflexivity. Qed.
  Lemma pe_prefix r : pe (S r) NtPrefix = (ops <- many0 pre_op ;;
            (e <- pe r NtSuffix ;;
             fun i => if Nat.ltb (S r) (length ops) then PFail i None
                      else POk i (fold_right Unary e ops))).
  Proof. reflexivity. Qed.
  Lemma pe_suffix r : pe (S r) NtSuffix = (e <- pe r NtSingle ;; fun i => suffix_loop (S (length i)) (suf r) e i).
  Proof. reflexivity. Qed.
  Lemma pe_single r : pe (S r) NtSingle = (pmap NumLit num_lit <|> pmap StrLit str_lit <|> pmap CharLit char_lit <|> path_var_bool lc <|> pe r NtArray <|> pe r NtGroup).
  Proof. reflexivity. Qed.
  Lemma pe_array r : pe (S r) NtArray = (pws (pchar 91) ;;;
            cut (l <- separated_list0 (pchar 44) (pws (pe r NtParse)) ;; (opt (pws (pchar 44)) ;;; (pchar 93 ;;; pret (Arr l))))).
  Proof. reflexivity. Qed.
  Lemma pe_group r : pe (S r) NtGroup = (e <- (pws (pchar 40) ;;; opt (pe r NtParse)) ;;
            match e with
            | None => pchar 41 ;;; pret (Tuple [])
            | Some e =>
                comma <- pws (opt (peek (pchar 44))) ;;
                match comma with
                | None => pchar 41 ;;; pret (Group e)
                | Some _ => es <- many0 (pchar 44 ;;; pws (pe r NtParse)) ;;
                            (pws (opt (pchar 44)) ;;; (pchar 41 ;;; pret (Tuple (e :: es))))
                end
            end).
  Proof. reflexivity. Qed.
  Lemma pe_index r : pe (S r) NtIndex = (pws (pchar 91) ;;; cut (e <- pws (pe r NtParse) ;; (pchar 93 ;;; pret e))).
  Proof. reflexivity. Qed.
  Lemma pe_args r start : pe (S r) (NtArguments false) start = 
            (pws (pchar 40) ;;;
             cut (l <- separated_list0_st (pchar 44) (fun names => pws (argument perr (pe r NtParse) start names)) [] ;;
                  (opt (pws (pchar 44)) ;;; (pchar 41 ;;; pret l)))) start.
  Proof. reflexivity. Qed.

  (** ** First characters *)
  Definition first (k : nat) (c : N) : Prop :=
    id_start c = true \/ is_dec c = true \/ In c [34; 39; 58; 91; 40] \/ ((k <= 11)%nat /\ In c [33; 45]) \/ (k = 0%nat /\ c = 46).
  (** A character with which no expression starts. *)
  Definition no_start (i : str) : Prop :=
    match i with [] => True | c :: _ => is_ws c = false /\ id_tail c = false /\ ~ In c [34; 39; 58; 91; 40; 33; 45] end.
  Lemma skip_none i : nohd is_ws i -> skip_blanks i = POk i [].
  Proof. intros H. apply (skip_blanks_exact [] i); auto. constructor. Qed.
  Lemma no_start_ws i : no_start i -> nohd is_ws i.
  Proof. clear lc. destruct i; cbn; tauto. Qed.
  Lemma pchar_no c i : nohd (N.eqb c) i -> pchar c i = PErr i None.
  Proof. destruct i as [|d i]; auto. unfold pchar, satisfy, nohd. intros ->. reflexivity. Qed.
  Lemma satisfy_no f i : nohd f i -> satisfy f i = PErr i None.
  Proof. destruct i as [|d i]; auto. unfold satisfy, nohd. intros ->. reflexivity. Qed.
  Lemma no_start_chr c i : no_start i -> In c [34; 39; 58; 91; 40; 33; 45] -> nohd (N.eqb c) i.
  Proof. clear lc. destruct i as [|d i]; cbn; auto. intros (_ & _ & H) Hc. destruct (N.eqb_spec c d) as [->|]; tauto. Qed.
  Lemma no_num i : nohd (fun c => is_dec c || (c =? 45)) i -> is_perr (num_lit i).
  Proof. clear lc.
    intros H. rewrite num_lit_eq. unfold recognize at 1, pbind at 1. unfold opt. rewrite pchar_no by (revert H; apply nohd_imp; intros c; lia).
    assert (R : is_perr (radix_branch i)).
    { unfold radix_branch, recognize at 1, pbind at 1. rewrite pchar_no; [exact (perr_i _ _)|]. revert H. apply nohd_imp. intros c. unfold is_dec. lia. }
    unfold por. destruct R as (e & m & ->). unfold recognize at 1, pbind at 1.
    destruct (sep_true_perr i) as (e' & m' & ->); [revert H; apply nohd_imp; intros c ->; reflexivity|]. exact (perr_i _ _).
  Qed.
  Lemma no_str i : nohd (N.eqb 34) i -> is_perr (str_lit i).
  Proof. intros H. unfold str_lit, pbind. rewrite pchar_no by auto. exact (perr_i _ _). Qed.
  Lemma no_char i : nohd (N.eqb 39) i -> is_perr (char_lit i).
  Proof. intros H. unfold char_lit, pbind. rewrite pchar_no by auto. exact (perr_i _ _). Qed.
  Lemma identifier_no i : nohd id_start i -> is_perr (identifier i).
  Proof.
    intros H. unfold identifier, recognize, pbind, split_at_position1. destruct i as [|c i]; [exact (perr_i _ _)|]. unfold nohd in H. cbn [span].
    rewrite H. exact (perr_i _ _).
  Qed.
  Lemma no_tag c t i : nohd (N.eqb c) i -> tag (c :: t) i = PErr i None.
  Proof. intros H. apply tag_fail. intros x ->. cbn in H. rewrite N.eqb_refl in H. discriminate. Qed.
  Lemma opt_pws_none {A} (p : P A) i : nohd is_ws i -> is_perr (p i) -> pws (opt p) i = POk i None.
  Proof. intros H (e & m & E). unfold pws, pbind. rewrite skip_none by auto. unfold opt. rewrite E. rewrite skip_none by auto. reflexivity. Qed.
  Lemma pws_perr {A} (p : P A) b i : blanks b -> nohd is_ws i -> is_perr (p i) -> is_perr (pws p (b ++ i)).
  Proof. intros Hb H (e & m & E). unfold pws, pbind. rewrite skip_blanks_exact by auto. rewrite E. exact (perr_i _ _). Qed.
  Lemma pws_tight {A} (p : P A) i r a : nohd is_ws i -> nohd is_ws r -> p i = POk r a -> pws p i = POk r a.
  Proof. intros Hi Hr E. unfold pws, pbind. rewrite skip_none by auto. rewrite E, skip_none by auto. reflexivity. Qed.
  Lemma pws_perr0 {A} (p : P A) i : nohd is_ws i -> is_perr (p i) -> is_perr (pws p i).
  Proof. intros. apply (pws_perr p [] i); auto. constructor. Qed.
  Lemma no_path i : nohd is_ws i -> nohd id_start i -> nohd (N.eqb 58) i -> is_perr (path_var_bool lc i).
  Proof.
    intros H1 H2 H3. unfold path_var_bool, pmap, path_or_identifier, pbind at 1. rewrite opt_pws_none; auto.
    - unfold pbind. destruct (identifier_no i H2) as (e & m & ->). exact (perr_i _ _).
    - change (lit "::") with (58 :: lit ":"). rewrite no_tag by auto. exact (perr_i _ _).
  Qed.
  Lemma no_array i r : nohd is_ws i -> nohd (N.eqb 91) i -> is_perr (pe (S r) NtArray i).
  Proof. intros H1 H2. rewrite pe_array. unfold pbind at 1. destruct (pws_perr0 (pchar 91) i H1) as (e & m & ->); [rewrite pchar_no by auto|]; exact (perr_i _ _). Qed.
  Lemma no_group i r : nohd is_ws i -> nohd (N.eqb 40) i -> is_perr (pe (S r) NtGroup i).
  Proof. intros H1 H2. rewrite pe_group. unfold pbind at 1. unfold pbind at 1. destruct (pws_perr0 (pchar 40) i H1) as (e & m & ->); [rewrite pchar_no by auto|]; exact (perr_i _ _). Qed.
  Lemma no_single i n : no_start i -> is_perr (pe (2 + n) NtSingle i).
  Proof.
    intros H. pose proof (no_start_ws i H) as Hw. change (2 + n)%nat with (S (S n)). rewrite pe_single. unfold por, pmap.
    destruct (no_num i) as (e1 & m1 & ->). { destruct i as [|c i]; auto. cbn in *. unfold id_tail in H. destruct (N.eqb_spec c 45) as [->|]; [tauto|]. destruct (is_dec c); auto. destruct H as (_ & H & _). now rewrite orb_true_r in H. }
    destruct (no_str i) as (e2 & m2 & ->); [apply no_start_chr; auto; cbn; tauto|].
    destruct (no_char i) as (e3 & m3 & ->); [apply no_start_chr; auto; cbn; tauto|].
    destruct (no_path i) as (e4 & m4 & ->); auto; [|apply no_start_chr; auto; cbn; tauto|].
    { destruct i as [|c i]; auto. cbn in *. destruct H as (_ & H & _). unfold id_tail in H. now destruct (id_start c). }
    destruct (no_array i n) as (e5 & m5 & E5); auto; [apply no_start_chr; auto; cbn; tauto|]. rewrite E5.
    destruct (no_group i n) as (e6 & m6 & E6); auto; [apply no_start_chr; auto; cbn; tauto|]. rewrite E6.
    exact (perr_i _ _).
  Qed.
  Lemma pre_op_perr i : nohd is_ws i -> nohd (N.eqb 33) i -> nohd (N.eqb 45) i -> is_perr (pre_op i).
  Proof.
    intros H1 H2 H3. apply pws_perr0; auto. unfold por. change (lit "!") with [33]. change (lit "-") with [45]. rewrite !no_tag by auto. exact (perr_i _ _).
  Qed.
  Lemma bad_start k n i : (1 <= k <= 13)%nat -> no_start i -> is_perr (lp k (15 - k + n) i).
  Proof.
    intros Hk Hi. assert (G : forall d, (d <= 12)%nat -> is_perr (lp (13 - d) (2 + d + n) i)).
    { induction d as [|d IH]; intros Hd; [now apply no_single|].
      specialize (IH ltac:(lia)). replace (2 + S d + n)%nat with (S (2 + d + n)) by lia. remember (13 - S d)%nat as j. replace (13 - d)%nat with (S j) in IH by lia.
      destruct (Nat.le_gt_cases j 9) as [L|L].
      - rewrite lp_layer by lia. unfold layer, pbind at 1. destruct IH as (e & m & ->). exact (perr_i _ _).
      - destruct d as [|[|[|d]]]; [| | |lia]; subst j; cbn [Nat.sub] in *; unfold lp in *.
        + rewrite pe_suffix. unfold pbind at 1. destruct IH as (e & m & ->). exact (perr_i _ _).
        + rewrite pe_prefix. unfold pbind at 1. rewrite (many0_steps _ i [] i); [|constructor|].
          * unfold pbind at 1. destruct IH as (e & m & ->). exact (perr_i _ _).
          * apply pre_op_perr; [now apply no_start_ws|apply no_start_chr; auto; cbn; tauto|apply no_start_chr; auto; cbn; tauto].
        + rewrite pe_filtered. unfold pbind at 1. destruct IH as (e & m & ->). exact (perr_i _ _). }
    replace k with (13 - (13 - k))%nat at 1 by lia. replace (15 - k + n)%nat with (2 + (13 - k) + n)%nat by lia. apply G. lia.
  Qed.

  (** ** What may follow *)
  Definition stop_chars : str := lit "+-*/%&|^<>=!.[(?:" ++ [34; 39].
  Definition stop (c : N) : Prop := is_ws c = false /\ id_tail c = false /\ ~ In c stop_chars.
  Definition ends (s : str) : Prop := match s with [] => True | c :: _ => stop c end.
  Lemma ends_ws s : ends s -> nohd is_ws s.
  Proof. clear lc. destruct s; cbn; unfold stop; tauto. Qed.
  Lemma ends_id s : ends s -> nohd id_tail s.
  Proof. clear lc. destruct s; cbn; unfold stop; tauto. Qed.
  Lemma ends_chr c s : In c stop_chars -> ends s -> nohd (N.eqb c) s.
  Proof. destruct s as [|d s]; auto. intros H (_ & _ & K). unfold nohd. destruct (N.eqb_spec c d) as [->|]; auto. destruct (K H). Qed.
  Lemma ends_no_start s : ends s -> no_start s.
  Proof. clear lc. destruct s as [|c s]; auto. intros (H1 & H2 & H3). repeat split; auto. intros K. apply H3. revert K. unfold stop_chars. cbn. tauto. Qed.
  (** The same, or an operator (a whitespace marker, or the start of a delimiter) without an operand. *)
  Definition ends2 (s : str) : Prop := ends s \/ exists c t, (c = 43 \/ c = 45 \/ c = 37) /\ s = c :: t /\ no_start t.
  Lemma ends2_ws s : ends2 s -> nohd is_ws s.
  Proof. intros [H|(c & t & [->|[->| ->]] & -> & H)]; [now apply ends_ws|reflexivity..]. Qed.
  Lemma ends2_id s : ends2 s -> nohd id_tail s.
  Proof. intros [H|(c & t & [->|[->| ->]] & -> & H)]; [now apply ends_id|reflexivity..]. Qed.
  Lemma ends2_chr c s : In c (lit "*/&|^<>=!.[(?:" ++ [34; 39]) -> ends2 s -> nohd (N.eqb c) s.
  Proof. clear lc.
    intros Hc [H|(d & t & Hd & -> & H)].
    - apply ends_chr; auto. unfold stop_chars. revert Hc. cbn. tauto.
    - assert (F : Forall (fun c => (c =? d) = false) (lit "*/&|^<>=!.[(?:" ++ [34; 39])) by (destruct Hd as [->|[->| ->]]; repeat constructor).
      rewrite Forall_forall in F. cbn [nohd]. now apply F.
  Qed.
  Inductive follow (k : nat) : str -> Prop :=
  | f_end b s : blanks b -> ends2 s -> follow k (b ++ s)
  | f_op op p s : In (op, p) precedence -> (p < k)%nat -> follow k (lit " " ++ op ++ lit " " ++ s)
  | f_range op s : (1 <= k)%nat -> In op range_ops -> follow k (lit " " ++ op ++ s)
  | f_filter c s : (11 <= k)%nat -> id_start c = true -> follow k (124 :: c :: s)
  | f_attr c s : (13 <= k)%nat -> id_start c = true -> follow k (46 :: c :: s)
  | f_attr2 s : (13 <= k)%nat -> follow k (32 :: 46 :: s)
  | f_suffix c s : (13 <= k)%nat -> In c [91; 40; 63; 33] -> follow k (c :: s)
  | f_word b c s : b <> [] -> blanks b -> id_start c = true -> follow k (b ++ c :: s).
  Lemma follow_mono j k s : (j <= k)%nat -> follow j s -> follow k s.
  Proof. clear lc. intros L [b t Hb Ht|op p t Ho Hp|op t H Ho|c t H Hc|c t H Hc|t H|c t H Hc|b c t Hne Hb Hc]; econstructor; eauto; lia. Qed.
  Ltac ops H := repeat (destruct H as [[= <- <-]|H]; [|]); try destruct H.
  Ltac perr_now := do 2 eexists; reflexivity.
  Lemma follow_num k s : follow k s -> after_num s.
  Proof. clear lc.
    intros [b t Hb Ht|op p t Ho Hp|op t H Ho|c t H Hc|c t H Hc|t H|c t H Hc|b c t Hne Hb Hc]; split; try reflexivity.
    - apply blanks_id; auto. now apply ends2_id.
    - destruct Hb as [|x b Hx Hb].
      + destruct t as [|c [|d t]]; cbn [app]; auto. intros ->. pose proof (ends2_chr 46 _ ltac:(cbn; tauto) Ht) as K. discriminate K.
      + cbn [app]. destruct (b ++ t); auto. intros ->. destruct Hx as [|[|[|[|[]]]]]; discriminate.
    - cbn. destruct op; cbn; discriminate.
    - cbn. destruct op; cbn; [destruct t|]; try discriminate; auto.
    - discriminate.
    - intros _. revert Hc. unfold id_start, is_upper, is_lower, is_dec. lia.
    - destruct Hc as [<-|[<-|[<-|[<-|[]]]]]; reflexivity.
    - destruct t; auto. intros ->. destruct Hc as [|[|[|[|[]]]]]; discriminate.
    - destruct Hb as [|x b Hx Hb]; [congruence|]. destruct Hx as [<-|[<-|[<-|[<-|[]]]]]; reflexivity.
    - destruct Hb as [|x b Hx Hb]; [congruence|]. cbn [app]. destruct (b ++ c :: t); auto. intros ->. destruct Hx as [|[|[|[|[]]]]]; discriminate.
  Qed.
  Lemma word_chr d c t : id_start c = true -> id_start d = false -> nohd (N.eqb d) (c :: t).
  Proof. clear lc. intros H D. cbn. destruct (N.eqb_spec d c) as [<-|]; congruence. Qed.
  Lemma word_ws c t : id_start c = true -> nohd is_ws (c :: t).
  Proof. clear lc. intros H. cbn. now apply id_not_ws. Qed.
  Lemma colons_perr b i : blanks b -> nohd is_ws i -> nohd (N.eqb 58) i -> is_perr ((pws (tag (lit "::")) ;;; identifier) (b ++ i)).
  Proof.
    intros Hb Hi H. unfold pbind at 1. destruct (pws_perr (tag (lit "::")) b i Hb Hi) as (e & m & ->); [|exact (perr_i _ _)].
    change (lit "::") with (58 :: lit ":"). rewrite no_tag by auto. exact (perr_i _ _).
  Qed.
  Lemma follow_colon k s : follow k s -> is_perr ((pws (tag (lit "::")) ;;; identifier) s).
  Proof.
    intros [b t Hb Ht|op p t Ho Hp|op t H Ho|c t H Hc|c t H Hc|t H|c t H Hc|b c t Hne Hb Hc].
    - apply colons_perr; auto; [now apply ends2_ws|]. apply ends2_chr; auto. cbn; tauto.
    - ops Ho; perr_now.
    - destruct Ho as [<-|[<-|[]]]; perr_now.
    - perr_now.
    - perr_now.
    - perr_now.
    - destruct Hc as [<-|[<-|[<-|[<-|[]]]]]; perr_now.
    - apply colons_perr; auto; [now apply word_ws|now apply word_chr].
  Qed.
  Lemma attr_perr b i : blanks b -> nohd is_ws i -> nohd (N.eqb 46) i -> is_perr (suffix_attr (b ++ i)).
  Proof.
    intros Hb Hi H. unfold suffix_attr, pmap, pbind at 1. destruct (pws_perr (pchar 46 ;;; pnot (pchar 46)) b i Hb Hi) as (e & m & ->); [|exact (perr_i _ _)].
    unfold pbind. rewrite pchar_no by auto. exact (perr_i _ _).
  Qed.
  Lemma index_perr b i n : blanks b -> nohd is_ws i -> nohd (N.eqb 91) i -> is_perr (pmap SIndex (pe (S n) NtIndex) (b ++ i)).
  Proof.
    intros Hb Hi H. unfold pmap. rewrite pe_index. unfold pbind at 1. destruct (pws_perr (pchar 91) b i Hb Hi) as (e & m & ->); [|exact (perr_i _ _)].
    rewrite pchar_no by auto. exact (perr_i _ _).
  Qed.
  Lemma call_perr b i n : blanks b -> nohd is_ws i -> nohd (N.eqb 40) i -> is_perr (pmap SCall (pe (S (S n)) NtCall) (b ++ i)).
  Proof.
    intros Hb Hi H. unfold pmap. change (pe (S (S n)) NtCall) with (pe (S n) (NtArguments false)). rewrite pe_args. unfold pbind at 1.
    destruct (pws_perr (pchar 40) b i Hb Hi) as (e & m & ->); [|exact (perr_i _ _)].
    rewrite pchar_no by auto. exact (perr_i _ _).
  Qed.
  Lemma try_perr b i : blanks b -> nohd is_ws i -> nohd (N.eqb 63) i -> is_perr (suffix_try (b ++ i)).
  Proof. intros Hb Hi H. unfold suffix_try, value, pmap, pbind. rewrite skip_blanks_exact by auto. rewrite pchar_no by auto. exact (perr_i _ _). Qed.
  Lemma macro_perr b i : blanks b -> nohd is_ws i -> nohd (N.eqb 33) i -> is_perr (suffix_macro (b ++ i)).
  Proof.
    intros Hb Hi H. unfold suffix_macro. unfold pbind at 1. unfold pbind at 1.
    destruct (pws_perr (pchar 33) b i Hb Hi) as (e & m & ->); [|exact (perr_i _ _)].
    rewrite pchar_no by auto. exact (perr_i _ _).
  Qed.
  Lemma follow_suf k n s : (k <= 12)%nat -> follow k s -> is_perr (suf (S (S n)) s).
  Proof.
    intros K [b t Hb Ht|op p t Ho Hp|op t H Ho|c t H Hc|c t H Hc|t H|c t H Hc|b c t Hne Hb Hc]; try lia.
    - pose proof (ends2_ws t Ht) as W. unfold suf, por.
      destruct (attr_perr b t) as (e1 & m1 & ->); auto; [apply ends2_chr; auto; cbn; tauto|].
      destruct (index_perr b t (S n)) as (e2 & m2 & ->); auto; [apply ends2_chr; auto; cbn; tauto|].
      destruct (call_perr b t n) as (e3 & m3 & ->); auto; [apply ends2_chr; auto; cbn; tauto|].
      destruct (try_perr b t) as (e4 & m4 & ->); auto; [apply ends2_chr; auto; cbn; tauto|].
      apply macro_perr; auto. apply ends2_chr; auto; cbn; tauto.
    - ops Ho; perr_now.
    - destruct Ho as [<-|[<-|[]]]; perr_now.
    - perr_now.
    - pose proof (word_ws c t Hc) as W. unfold suf, por.
      destruct (attr_perr b (c :: t)) as (e1 & m1 & ->); auto; [now apply word_chr|].
      destruct (index_perr b (c :: t) (S n)) as (e2 & m2 & ->); auto; [now apply word_chr|].
      destruct (call_perr b (c :: t) n) as (e3 & m3 & ->); auto; [now apply word_chr|].
      destruct (try_perr b (c :: t)) as (e4 & m4 & ->); auto; [now apply word_chr|].
      apply macro_perr; auto. now apply word_chr.
  Qed.
  Lemma follow_filter k args s : (k <= 10)%nat -> follow k s -> is_perr (filter args s).
  Proof. clear lc.
    intros K H. assert (N : nohd (N.eqb 124) s).
    { destruct H as [b t Hb Ht|op p t Ho Hp|op t H Ho|c t H Hc|c t H Hc|t H|c t H Hc|b c t Hne Hb Hc]; try lia; try reflexivity.
      - destruct Hb as [|x b Hx Hb]; [apply ends2_chr; auto; cbn; tauto|]. destruct Hx as [<-|[<-|[<-|[<-|[]]]]]; reflexivity.
      - destruct Hb as [|x b Hx Hb]; [congruence|]. destruct Hx as [<-|[<-|[<-|[<-|[]]]]]; reflexivity. }
    unfold filter, pbind at 1. rewrite pchar_no by auto. exact (perr_i _ _).
  Qed.
  Lemma ops_perr k i : (forall c, In c (lit "|&=!<>^+-*/%") -> nohd (N.eqb c) i) -> is_perr (ops_of k i).
  Proof.
    intros H.
    assert (T : forall c u, In c (lit "|&=!<>^+-*/%") -> tag (c :: u) i = PErr i None) by (intros c u Hc; apply no_tag; auto).
    destruct k as [|[|[|[|[|[|[|[|[|[|k]]]]]]]]]]; try exact (perr_i _ _); unfold ops_of, por;
      repeat match goal with |- context[tag ?t i] => 
        let t' := eval cbv in t in change t with t'; rewrite (T _ _) by (cbn; tauto) end; exact (perr_i _ _).
  Qed.
  Lemma follow_layer j n s : (1 <= j <= 9)%nat -> follow j s -> is_perr (body j (15 - S j + n) s).
  Proof.
    intros J H. unfold body. unfold pbind at 1.
    destruct H as [b t Hb Ht|op p t Ho Hp|op t H Ho|c t H Hc|c t H Hc|t H|c t H Hc|b c t Hne Hb Hc]; try lia.
    - destruct Ht as [Ht|(d & u & Hd & -> & Ht)].
      + destruct (pws_perr (ops_of j) b t Hb (ends_ws t Ht)) as (e & m & ->); [|exact (perr_i _ _)].
        apply ops_perr. intros c Hc. apply ends_chr; auto. revert Hc. unfold stop_chars. cbn. tauto.
      + assert (Wu : nohd is_ws u) by now apply no_start_ws.
        assert (W : nohd is_ws (d :: u)) by (destruct Hd as [->|[->| ->]]; reflexivity).
        destruct (Nat.eq_dec j (if d =? 37 then 9 else 8)) as [J8|J8].
        * assert (E : pws (ops_of j) (b ++ d :: u) = POk u [d]).
          { apply (pws_exact (ops_of j) b (d :: u) [d] [] u [d]); [exact Hb|constructor|exact W|exact Wu|reflexivity|]. subst j. destruct Hd as [->|[->| ->]]; reflexivity. }
          rewrite E. unfold pbind at 1. destruct (bad_start (S j) n u) as (x & m & E'); [lia|exact Ht|]. rewrite E'. exact (perr_i _ _).
        * destruct (pws_perr (ops_of j) b (d :: u) Hb W) as (e & m & ->); [|exact (perr_i _ _)].
          destruct j as [|[|[|[|[|[|[|[|[|[|j]]]]]]]]]]; try (exfalso; lia); destruct Hd as [->|[->| ->]]; try (exfalso; now apply J8); exact (perr_i _ _).
    - ops Ho; destruct j as [|[|[|[|[|[|[|[|[|[|j]]]]]]]]]]; try (exfalso; lia); perr_now.
    - destruct Ho as [<-|[<-|[]]]; destruct j as [|[|[|[|[|[|[|[|[|[|j]]]]]]]]]]; try (exfalso; lia); perr_now.
    - destruct (pws_perr (ops_of j) b (c :: t) Hb (word_ws c t Hc)) as (e & m & ->); [|exact (perr_i _ _)].
      apply ops_perr. intros d Hd. apply word_chr; auto. cbn in Hd. repeat (destruct Hd as [<-|Hd]; [reflexivity|]). destruct Hd.
  Qed.
  Lemma end_range r b s : blanks b -> ends2 s -> is_perr (range_right r (b ++ s)).
  Proof.
    intros Hb Hs. unfold range_right, pbind at 1. destruct (pws_perr (tag (lit "..=") <|> tag (lit "..")) b s Hb (ends2_ws s Hs)) as (e & m & ->); [|exact (perr_i _ _)].
    unfold por. change (lit "..=") with (46 :: lit ".="). change (lit "..") with (46 :: lit "."). rewrite !no_tag; [exact (perr_i _ _)|apply ends2_chr; auto; cbn; tauto..].
  Qed.

  Lemma bad_start2 k n i : (1 <= k <= 11)%nat -> ends2 i -> is_perr (lp k (15 - k + n) i).
  Proof.
    intros Hk [Hi|(c & t & Hc & -> & Ht)]; [apply bad_start; [lia|now apply ends_no_start]|]. destruct Hc as [->|Hc].
    { apply bad_start; [lia|]. split; [reflexivity|]. split; [reflexivity|]. intros K. cbn in K. intuition discriminate. }
    destruct Hc as [->| ->].
    2: { apply bad_start; [lia|]. split; [reflexivity|]. split; [reflexivity|]. intros K. cbn in K. intuition discriminate. }
    assert (G : forall d, (d <= 10)%nat -> is_perr (lp (11 - d) (4 + d + n) (45 :: t))).
    { induction d as [|d IH]; intros Hd.
      - unfold lp. cbn [Nat.sub Nat.add]. rewrite pe_prefix. unfold pbind at 1. pose proof (no_start_ws t Ht) as W. pose proof Ht as N.
        rewrite (many0_steps pre_op (45 :: t) [[45]] t).
        + unfold pbind at 1. destruct (bad_start 12 n t ltac:(lia) N) as (e & m & E). unfold lp in E. cbn [Nat.sub Nat.add] in E. rewrite E. exact (perr_i _ _).
        + econstructor; [|apply Nat.lt_succ_diag_r|constructor]. apply pws_tight; [reflexivity|exact W|reflexivity].
        + apply pre_op_perr; [exact W|apply no_start_chr; auto; cbn; tauto|apply no_start_chr; auto; cbn; tauto].
      - specialize (IH ltac:(lia)). replace (4 + S d + n)%nat with (S (4 + d + n)) by lia. remember (11 - S d)%nat as j. replace (11 - d)%nat with (S j) in IH by lia.
        destruct (Nat.le_gt_cases j 9) as [L|L].
        + rewrite lp_layer by lia. unfold layer, pbind at 1. destruct IH as (e & m & ->). exact (perr_i _ _).
        + assert (d = 0)%nat as -> by lia. subst j. cbn [Nat.sub] in *. unfold lp in *. rewrite pe_filtered. unfold pbind at 1. destruct IH as (e & m & ->). exact (perr_i _ _). }
    replace k with (11 - (11 - k))%nat at 1 by lia. replace (15 - k + n)%nat with (4 + (11 - k) + n)%nat by lia. apply G. lia.
  Qed.

  (** ** Identifiers and paths *)
  Lemma ident_kw s : ident s -> kw_ok s.
  Proof. clear lc.
    intros (c & t & -> & Hc & Ht). assert (C : id_start c = true) by (revert Hc; unfold ident_start, id_start, is_upper, is_lower; lia).
    repeat split; [discriminate|cbn; now rewrite C|]. constructor; [now apply id_start_tail|]. eapply Forall_impl; [|exact Ht].
    intros x. unfold ident_start, id_tail, id_start, is_upper, is_lower, is_dec. lia.
  Qed.
  Lemma ident_read s r : ident s -> nohd id_tail r -> identifier (s ++ r) = POk r s.
  Proof. intros H Hr. destruct (ident_kw s H) as (H1 & H2 & H3). now apply identifier_exact. Qed.
  Lemma ident_hd s : ident s -> exists c t, s = c :: t /\ id_start c = true.
  Proof. clear lc. intros (c & t & -> & Hc & _). exists c, t. split; auto. revert Hc; unfold ident_start, id_start, is_upper, is_lower; lia. Qed.
  Lemma sep_cons sep x l : sep_by sep (x :: l) = x ++ concat (map (fun y => sep ++ y) l).
  Proof.
    revert x. induction l as [|y l IH]; intros x; [cbn; now rewrite app_nil_r|]. change (sep_by sep (x :: y :: l)) with (x ++ sep ++ sep_by sep (y :: l)).
    rewrite IH. cbn [map concat]. now rewrite <- app_assoc.
  Qed.
  Definition seg : P str := pws (tag (lit "::")) ;;; identifier.
  Lemma seg_steps l r : Forall ident l -> nohd id_tail r -> steps seg (concat (map (fun y => lit "::" ++ y) l) ++ r) l r.
  Proof.
    intros Hl Hr. induction Hl as [|y l Hy Hl IH]; [constructor|]. cbn [map concat]. rewrite <- !app_assoc.
    econstructor; [| |exact IH].
    - unfold seg, pbind at 1. erewrite pws_tight; [|reflexivity| |apply tag_exact].
      + apply ident_read; auto. destruct l; [exact Hr|reflexivity].
      + destruct (ident_hd y Hy) as (c & t & -> & Hc). cbn [app nohd]. now apply id_not_ws.
    - rewrite !app_length. cbn. lia.
  Qed.
  Lemma many1_steps {A} (p : P A) i a l r : steps p i (a :: l) r -> is_perr (p r) -> many1 p i = POk r (a :: l).
  Proof.
    intros H E. inversion H as [|? j ? ? ? H1 H2 H3]; subst. unfold many1. rewrite H1. change (many0_fuel (S (length j)) p j) with (many0 p j).
    rewrite (many0_steps p j l r H3 E). reflexivity.
  Qed.
  Lemma poi_exact l root r : l <> [] -> Forall ident l -> (root = [] \/ root = [[]]) -> nohd id_tail r -> is_perr (seg r) ->
    path_or_identifier lc (sep_by (lit "::") (root ++ l) ++ r) =
      POk r (match root, l with
             | [], [x] => if match x with [] => true | c :: _ => lc c end then inr x else inl [x]
             | _, _ => inl (root ++ l)
             end).
  Proof.
    intros Hn Hl Hroot Hid Hc. destruct l as [|x l]; [congruence|]. inversion Hl as [|? ? Hx Hl']; subst.
    assert (T : (start <- identifier ;;
     (rest <- opt (many1 seg) ;;
      let rest := match rest with Some l => l | None => [] end in
      pret (match (match root with [] => None | _ => Some (lit "::") end), rest with
            | Some _, _ => inl ([] :: start :: rest)
            | None, [] => if match start with [] => true | c :: _ => lc c end then inr start else inl [start]
            | None, _ => inl (start :: rest)
            end))) (sep_by (lit "::") (x :: l) ++ r) = 
       POk r (match root, x :: l with
             | [], [x] => if match x with [] => true | c :: _ => lc c end then inr x else inl [x]
             | _, _ => inl (root ++ x :: l)
             end)).
    { rewrite sep_cons, <- app_assoc. unfold pbind at 1. rewrite ident_read; auto; [|destruct l; [exact Hid|reflexivity]].
      pose proof (seg_steps l r Hl' Hid) as S. unfold pbind at 1. destruct l as [|y l].
      - cbn [map concat app]. assert (O : opt (many1 seg) r = POk r None) by (unfold opt, many1; destruct Hc as (e & m & ->); reflexivity).
        rewrite O. cbv iota. unfold pret. destruct Hroot as [->| ->]; [destruct x; reflexivity|]. reflexivity.
      - unfold opt. rewrite (many1_steps seg _ y l r S Hc). destruct Hroot as [->| ->]; reflexivity. }
    destruct Hroot as [->| ->].
    - cbn [app]. unfold path_or_identifier, pbind at 1. rewrite opt_pws_none; [exact T| |].
      + rewrite sep_cons, <- app_assoc. destruct (ident_hd x Hx) as (c & t & -> & C). cbn [app nohd]. now apply id_not_ws.
      + rewrite sep_cons, <- app_assoc. destruct (ident_hd x Hx) as (c & t & -> & C). cbn [app].
        change (lit "::") with (58 :: lit ":"). rewrite no_tag; [exact (perr_i _ _)|]. unfold nohd. destruct (N.eqb_spec 58 c) as [<-|]; [discriminate C|reflexivity].
    - change (sep_by (lit "::") ([[]] ++ x :: l)) with (lit "::" ++ sep_by (lit "::") (x :: l)). rewrite <- app_assoc.
      unfold path_or_identifier, pbind at 1.
      rewrite (pws_tight (opt (tag (lit "::"))) _ (sep_by (lit "::") (x :: l) ++ r) (Some (lit "::"))); [exact T|reflexivity| |].
      + rewrite sep_cons, <- app_assoc. destruct (ident_hd x Hx) as (c & t & -> & C). cbn [app nohd]. now apply id_not_ws.
      + unfold opt. rewrite tag_exact. reflexivity.
  Qed.
  Lemma poi_read l root r k : l <> [] -> Forall ident l -> (root = [] \/ root = [[]]) -> follow k r ->
    path_or_identifier lc (sep_by (lit "::") (root ++ l) ++ r) =
      POk r (match root, l with
             | [], [x] => if match x with [] => true | c :: _ => lc c end then inr x else inl [x]
             | _, _ => inl (root ++ l)
             end).
  Proof. intros Hn Hl Hroot Hr. apply poi_exact; auto; [apply (follow_num k r Hr)|exact (follow_colon k r Hr)]. Qed.
  (** What the parser makes of a path. *)
  Definition path_expr (p : list str) : expr :=
    match p with
    | [x] => if match x with [] => true | c :: _ => lc c end
             then if str_eqb x (lit "true") || str_eqb x (lit "false") then BoolLit x else Var x else Path [x]
    | _ => Path p
    end.
  Lemma path_read p r k : path_ok p -> follow k r -> path_var_bool lc (sep_by (lit "::") p ++ r) = POk r (path_expr p).
  Proof.
    intros (l & Hn & Hl & Hp) Hr. unfold path_var_bool, pmap. destruct Hp as [->| ->].
    - pose proof (poi_read l [] r k Hn Hl (or_introl eq_refl) Hr) as E. cbn [app] in E. rewrite E. destruct l as [|x [|y l]]; [congruence| |reflexivity].
      unfold path_expr. destruct (match x with [] => true | c :: _ => lc c end); reflexivity.
    - pose proof (poi_read l [[]] r k Hn Hl (or_intror eq_refl) Hr) as E. cbn [app] in E. rewrite E. destruct l as [|x l]; [congruence|]. reflexivity.
  Qed.
  Lemma path_hd p r : path_ok p -> exists c t, sep_by (lit "::") p ++ r = c :: t /\ (id_start c = true \/ c = 58).
  Proof.
    intros (l & Hn & Hl & Hp). destruct l as [|x l]; [congruence|]. inversion Hl as [|? ? Hx Hl']; subst. destruct Hp as [->| ->].
    - rewrite sep_cons, <- app_assoc. destruct (ident_hd x Hx) as (c & t & -> & C). cbn [app]. eauto.
    - change (sep_by (lit "::") ([] :: x :: l)) with (lit "::" ++ sep_by (lit "::") (x :: l)). cbn. eauto.
  Qed.
  Lemma single_path p r k n : path_ok p -> follow k r -> pe (S n) NtSingle (sep_by (lit "::") p ++ r) = POk r (path_expr p).
  Proof.
    intros Hp Hr. pose proof (path_read p r k Hp Hr) as E. destruct (path_hd p r Hp) as (c & t & Et & Hc). rewrite Et in *.
    assert (D : is_dec c || (c =? 45) = false /\ (34 =? c) = false /\ (39 =? c) = false).
    { destruct Hc as [Hc| ->]; [|auto]. revert Hc. unfold id_start, is_upper, is_lower, is_dec. lia. }
    rewrite pe_single. unfold por, pmap. destruct (no_num (c :: t)) as (e1 & m1 & ->); [apply D|]. destruct (no_str (c :: t)) as (e2 & m2 & ->); [apply D|].
    destruct (no_char (c :: t)) as (e3 & m3 & ->); [apply D|]. rewrite E. reflexivity.
  Qed.
  Lemma single_num s r k n : rust_number s -> follow k r -> pe (S n) NtSingle (s ++ r) = POk r (NumLit s).
  Proof. intros Hs Hr. rewrite pe_single. unfold por, pmap. rewrite num_lit_complete; auto. eapply follow_num; eauto. Qed.
  Lemma single_str s r n : quoted 34 s -> pe (S n) NtSingle (34 :: s ++ 34 :: r) = POk r (StrLit s).
  Proof. intros Hs. rewrite pe_single. unfold por, pmap. destruct (no_num (34 :: s ++ 34 :: r)) as (e1 & m1 & ->); [reflexivity|]. rewrite str_lit_complete; auto. Qed.
  Lemma single_chr s r n : char_text s -> pe (S n) NtSingle (39 :: s ++ 39 :: r) = POk r (CharLit s).
  Proof.
    intros Hs. rewrite pe_single. unfold por, pmap. destruct (no_num (39 :: s ++ 39 :: r)) as (e1 & m1 & ->); [reflexivity|].
    destruct (no_str (39 :: s ++ 39 :: r)) as (e2 & m2 & ->); [reflexivity|]. rewrite char_lit_complete; auto.
  Qed.
  Lemma single_array i n r e : pe (S n) NtArray (91 :: i) = POk r e -> pe (S (S n)) NtSingle (91 :: i) = POk r e.
  Proof.
    intros E. rewrite pe_single. unfold por, pmap.
    destruct (no_num (91 :: i)) as (e1 & m1 & ->); [reflexivity|]. destruct (no_str (91 :: i)) as (e2 & m2 & ->); [reflexivity|].
    destruct (no_char (91 :: i)) as (e3 & m3 & ->); [reflexivity|].
    destruct (no_path (91 :: i)) as (e4 & m4 & ->); [reflexivity..|]. rewrite E. reflexivity.
  Qed.
  Lemma single_group i n : pe (S (S n)) NtSingle (40 :: i) = pe (S n) NtGroup (40 :: i).
  Proof.
    rewrite pe_single. unfold por, pmap.
    destruct (no_num (40 :: i)) as (e1 & m1 & ->); [reflexivity|]. destruct (no_str (40 :: i)) as (e2 & m2 & ->); [reflexivity|].
    destruct (no_char (40 :: i)) as (e3 & m3 & ->); [reflexivity|].
    destruct (no_path (40 :: i)) as (e4 & m4 & ->); [reflexivity..|]. destruct (no_array (40 :: i) n) as (e5 & m5 & ->); reflexivity.
  Qed.

  (** ** What is to be proved of an expression *)
  Definition good (k : nat) (e : expr) : Prop :=
    forall n rest, (need e <= n)%nat -> follow k rest -> lp k (15 - k + n) (text e ++ rest) = POk rest e.
  Definition good0 (e : expr) : Prop :=
    forall n b s, (need e <= n)%nat -> blanks b -> ends2 s -> exists b', blanks b' /\ pe (15 + n) NtParse (text e ++ b ++ s) = POk (b' ++ s) e.
  Definition app_suf (e : expr) (x : suffix_kind) : option expr :=
    match x with
    | SAttr a => Some (Attr e a) | SIndex i => Some (Index e i) | SCall l => Some (Call e l) | STry => Some (Try e)
    | SMacroCall a => match e with Path p => Some (RustMacro p a) | Var v => Some (RustMacro [v] a) | _ => None end
    end.
  Inductive sufs (p : P suffix_kind) : str -> expr -> str -> expr -> Prop :=
  | sufs_nil i e : sufs p i e i e
  | sufs_cons i e j x e1 r e2 : p i = POk j x -> (length j < length i)%nat -> app_suf e x = Some e1 -> sufs p j e1 r e2 -> sufs p i e r e2.
  Lemma sufs_snoc p i e j e1 x r e2 : sufs p i e j e1 -> p j = POk r x -> (length r < length j)%nat -> app_suf e1 x = Some e2 -> sufs p i e r e2.
  Proof. induction 1 as [i e|i e j x' e1' k e2' H1 H2 H3 H IH]; intros A B C; econstructor; eauto. constructor. Qed.
  Lemma sufs_loop p i e r e' n : sufs p i e r e' -> is_perr (p r) -> (length i < n)%nat -> suffix_loop n p e i = POk r e'.
  Proof.
    intros H E. revert n. induction H as [i e|i e j x e1 r e2 H1 H2 H3 H IH]; intros n Hn; (destruct n as [|n]; [lia|]); cbn [suffix_loop]; unfold opt.
    - destruct E as (z & m & ->). reflexivity.
    - rewrite H1. specialize (IH E n ltac:(lia)). destruct x; cbn in H3; try (injection H3 as <-; exact IH).
      destruct e; try discriminate; injection H3 as <-; exact IH.
  Qed.
  Definition sp (k : nat) (e : expr) : Prop :=
    forall n rest, (need e <= n)%nat -> follow (S k) rest ->
    match k with
    | 10%nat => exists e0 l j, lp 11 (4 + n) (text e ++ rest) = POk j e0 /\ steps (filter (pe (4 + n) (NtArguments false))) j l rest /\
                  fold_left apply_filter l e0 = e
    | 11%nat => exists ops j e0, steps pre_op (text e ++ rest) ops j /\ is_perr (pre_op j) /\ lp 12 (3 + n) j = POk rest e0 /\
                  fold_right Unary e0 ops = e /\ (length ops <= need e)%nat
    | 12%nat => exists e0 j, lp 13 (2 + n) (text e ++ rest) = POk j e0 /\ sufs (suf (2 + n)) j e0 rest e
    | _ => exists e0 l j, lp (S k) (15 - S k + n) (text e ++ rest) = POk j e0 /\ steps (body k (15 - S k + n)) j l rest /\
                  fold_left bin l e0 = e
    end.
  Lemma layer_steps ops inner i j e0 l r : inner i = POk j e0 ->
    steps (op <- pws ops ;; (r <- inner ;; pret (op, r))) j l r -> is_perr ((op <- pws ops ;; (r <- inner ;; pret (op, r))) r) ->
    layer ops inner i = POk r (fold_left bin l e0).
  Proof. intros H1 H2 H3. unfold layer, pbind at 1. rewrite H1. unfold pbind at 1. rewrite (many0_steps _ _ _ _ H2 H3). reflexivity. Qed.
  Lemma good_of_sp k e : (1 <= k <= 12)%nat -> sp k e -> good k e.
  Proof.
    intros Hk H n rest Hn Hr. specialize (H n rest Hn (follow_mono k (S k) rest ltac:(lia) Hr)).
    destruct (Nat.le_gt_cases k 9) as [L|L].
    - assert (H' : exists e0 l j, lp (S k) (15 - S k + n) (text e ++ rest) = POk j e0 /\ steps (body k (15 - S k + n)) j l rest /\ fold_left bin l e0 = e).
      { do 10 (destruct k as [|k]; [exact H|]). lia. }
      destruct H' as (e0 & l & j & H1 & H2 & <-). replace (15 - k + n)%nat with (S (15 - S k + n)) by lia. rewrite lp_layer by lia.
      apply layer_steps with (j := j); auto. apply follow_layer; [lia|exact Hr].
    - destruct (Nat.eq_dec k 10) as [->|]; [|destruct (Nat.eq_dec k 11) as [->|]; [|assert (k = 12)%nat as -> by lia]].
      + destruct H as (e0 & l & j & H1 & H2 & <-). change (lp 10 (15 - 10 + n)) with (pe (S (4 + n)) NtFiltered). rewrite pe_filtered. unfold pbind at 1.
        change (lp 11 (4 + n)) with (pe (4 + n) NtPrefix) in H1. rewrite H1. unfold pbind. rewrite (many0_steps _ _ _ _ H2); [reflexivity|]. apply (follow_filter 10); auto.
      + destruct H as (ops & j & e0 & H1 & H2 & H3 & <- & H5). change (lp 11 (15 - 11 + n)) with (pe (S (3 + n)) NtPrefix). rewrite pe_prefix. unfold pbind at 1.
        rewrite (many0_steps _ _ _ _ H1 H2). unfold pbind. change (lp 12 (3 + n)) with (pe (3 + n) NtSuffix) in H3. rewrite H3.
        destruct (Nat.ltb_spec (S (3 + n)) (length ops)); [lia|reflexivity].
      + destruct H as (e0 & j & H1 & H2). change (lp 12 (15 - 12 + n)) with (pe (S (2 + n)) NtSuffix). rewrite pe_suffix. unfold pbind.
        change (lp 13 (2 + n)) with (pe (2 + n) NtSingle) in H1. rewrite H1. apply sufs_loop; [exact H2| |lia]. apply (follow_suf 12); auto.
  Qed.
  Lemma sp_of_good k e : (1 <= k <= 12)%nat -> (k = 11%nat -> forall r, is_perr (pre_op (text e ++ r))) -> good (S k) e -> sp k e.
  Proof.
    intros Hk H11 H n rest Hn Hr. specialize (H n rest Hn Hr).
    destruct (Nat.le_gt_cases k 9) as [L|L].
    - assert (H' : exists e0 l j, lp (S k) (15 - S k + n) (text e ++ rest) = POk j e0 /\ steps (body k (15 - S k + n)) j l rest /\ fold_left bin l e0 = e).
      { exists e, [], rest. split; [exact H|]. split; [constructor|reflexivity]. }
      do 10 (destruct k as [|k]; [exact H'|]). lia.
    - destruct (Nat.eq_dec k 10) as [->|]; [|destruct (Nat.eq_dec k 11) as [->|]; [|assert (k = 12)%nat as -> by lia]].
      + exists e, [], rest. split; [exact H|]. split; [constructor|reflexivity].
      + exists [], (text e ++ rest), e. split; [constructor|]. split; [auto|]. split; [exact H|]. split; [reflexivity|cbn; lia].
      + exists e, rest. split; [exact H|constructor].
  Qed.
End Round.
