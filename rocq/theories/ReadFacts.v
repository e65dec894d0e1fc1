(** * Facts about the reader of ReadSpec.v: it reads at most one tree, exactly the trees whose operands bind strongly enough. *)
From Verif Require Import Base Ws Ast GenExpr ParseSpec RexprFacts ReadSpec.
From Coq Require Import Lia.
Local Open Scope N_scope.

(** How strongly the outermost operator binds: 0 ranges, 1 to 9 binary operators, 10 prefix operators, 11 everything else
    (literals, names, brackets, calls, fields, indexes, [?]). *)
Definition firmness (e : rexpr) : nat :=
  match e with
  | RRange _ _ _ => 0
  | RBin op _ _ => find_prec op precedence
  | RRef e => if range_first e then 0 else 10
  | RDeref _ | RUn _ _ => 10
  | _ => 11
  end%nat.
Inductive grammatical : rexpr -> Prop :=
| g_tok s : hd_error s <> Some 45 -> grammatical (RTok s)
| g_str s : grammatical (RStr s)
| g_char s : grammatical (RChar s)
| g_name s : grammatical (RName s)
| g_path l : grammatical (RPath l)
| g_macro p a : grammatical (RMacro p a)
| g_arr l : Forall grammatical l -> grammatical (RArr l)
| g_tup l : Forall grammatical l -> grammatical (RTup l)
| g_grp e : grammatical e -> grammatical (RGrp e)
| g_cycle e : grammatical e -> grammatical (RCycle e)
| g_try e : grammatical e -> grammatical (RTry e)
| g_field e x : field_ok e x = true -> (11 <= firmness e)%nat -> grammatical e -> grammatical (RField e x)
| g_index e i : (11 <= firmness e)%nat -> grammatical e -> grammatical i -> grammatical (RIndex e i)
| g_call f l : (11 <= firmness f)%nat -> grammatical f -> Forall (fun a => grammatical (snd a)) l -> grammatical (RCall f l)
| g_ref e : (10 <= firmness e)%nat -> grammatical e -> grammatical (RRef e)
| g_ref_range e : range_first e = true -> grammatical e -> grammatical (RRef e)
| g_deref e : (10 <= firmness e)%nat -> grammatical e -> grammatical (RDeref e)
| g_un op e : In op unary_ops -> (10 <= firmness e)%nat -> grammatical e -> grammatical (RUn op e)
| g_bin op p l r : In (op, p) precedence -> (p <= firmness l)%nat -> (p = 3 -> 3 < firmness l)%nat -> (p < firmness r)%nat ->
    grammatical l -> grammatical r -> grammatical (RBin op l r)
| g_range op l r : In op range_ops -> (op = lit "..=" -> r <> None) ->
    (forall e, l = Some e -> (1 <= firmness e)%nat /\ grammatical e) -> (forall e, r = Some e -> (1 <= firmness e)%nat /\ grammatical e) ->
    grammatical (RRange op l r)
| g_filter b x l : Forall (fun a => grammatical (snd a)) l -> grammatical (RFilter b x l)
| g_safe x a : grammatical (snd a) -> grammatical (RSafe x a)
| g_escape x a : grammatical (snd a) -> grammatical (REscape x a)
| g_format x l : Forall (fun a => grammatical (snd a)) l -> grammatical (RFormat x l)
| g_join l : Forall grammatical l -> grammatical (RJoin l)
| g_markup x e : grammatical e -> grammatical (RMarkup x e).

(** ** Operators *)
Lemma prec_range op p : In (op, p) precedence -> (1 <= p <= 9)%nat.
Proof. intros H. cbn in H. repeat (destruct H as [H|H]; [injection H as <- <-; lia|]). contradiction. Qed.
Lemma prec_eq op p : In (op, p) precedence -> find_prec op precedence = p.
Proof. intros H. cbn in H. repeat (destruct H as [H|H]; [injection H as <- <-; reflexivity|]). contradiction. Qed.
Lemma prec_fun op p p' : In (op, p) precedence -> In (op, p') precedence -> p = p'.
Proof. intros H H'. apply prec_eq in H, H'. congruence. Qed.
Lemma prec_not_range op p : In (op, p) precedence -> In op range_ops -> False.
Proof. intros H R. apply prec_eq in H as Q. apply prec_range in H. destruct R as [R|[R|[]]]; subst op; vm_compute in Q; lia. Qed.
Lemma range_not_prefix op : In op range_ops -> op <> lit "&" /\ op <> lit "*" /\ ~ In op unary_ops.
Proof. intros [<-|[<-|[]]]; (split; [discriminate|split; [discriminate|]]); intros [H|[H|[]]]; discriminate H. Qed.
Lemma unary_not op : In op unary_ops -> op <> lit "&" /\ op <> lit "*".
Proof. intros [<-|[<-|[]]]; split; discriminate. Qed.
Lemma firm_rf e : range_first e = true -> firmness e = 0%nat.
Proof. destruct e; try discriminate; [|reflexivity]. cbn [range_first firmness]. intros ->. reflexivity. Qed.
Lemma rf_firm e : (1 <= firmness e)%nat -> range_first e = false.
Proof. intros H. destruct (range_first e) eqn:E; [|reflexivity]. apply firm_rf in E. lia. Qed.
Lemma comparison_firm e : grammatical e -> is_comparison e <-> firmness e = 3%nat.
Proof.
  intros G. split.
  - destruct e; try contradiction. cbn [is_comparison firmness]. apply prec_eq.
  - destruct G; cbn [firmness is_comparison]; try (intros; lia); [destruct (range_first e); lia|destruct (range_first e); lia|].
    rewrite (prec_eq _ _ H). intros ->. exact H.
Qed.

(** ** The tokens *)
Definition arg_spaced (a : bool * bool * rexpr) : list tok := match a with (b, c, e) => if b || c then between (OArg b c) (spaced e) else spaced e end.
Definition arg_toks (a : bool * bool * rexpr) : list tok := match a with (b, c, e) => if b || c then between (OArg b c) (toks e) else toks e end.
Notation sol := (filter solid).
Lemma sol_between o ts : sol (between o ts) = between o (sol ts).
Proof. unfold between. cbn [filter solid]. rewrite filter_app. reflexivity. Qed.
Lemma sol_sep s l : sol (sep_toks s l) = sep_toks (sol s) (map sol l).
Proof.
  induction l as [|x l IH]; [reflexivity|]. destruct l as [|y l]; [reflexivity|].
  change (sol (x ++ s ++ sep_toks s (y :: l)) = sol x ++ sol s ++ sep_toks (sol s) (map sol (y :: l))). rewrite !filter_app, IH. reflexivity.
Qed.
Lemma sol_arg a : sol (arg_spaced a) = arg_toks a.
Proof. destruct a as [[b c] e]. unfold arg_spaced, arg_toks. destruct (b || c); [apply sol_between|reflexivity]. Qed.
Lemma sep_nil l : sep_toks [] l = concat l.
Proof. induction l as [|x l IH]; [reflexivity|]. destruct l as [|y l]; [symmetry; apply app_nil_r|]. change (x ++ sep_toks [] (y :: l) = x ++ concat (y :: l)). rewrite IH. reflexivity. Qed.
Lemma map_sol_arg l : map sol (map arg_spaced l) = map arg_toks l.
Proof. rewrite map_map. apply map_ext, sol_arg. Qed.
Lemma map_sol l : map sol (map spaced l) = map toks l.
Proof. rewrite map_map. reflexivity. Qed.
Lemma sep_concat s x l : sep_toks s (x :: l) = x ++ concat (map (fun y => s ++ y) l).
Proof.
  revert x. induction l as [|y l IH]; intros x; [symmetry; apply app_nil_r|].
  change (x ++ s ++ sep_toks s (y :: l) = x ++ (s ++ y) ++ concat (map (fun y => s ++ y) l)). rewrite IH, <- app_assoc. reflexivity.
Qed.
Lemma t_arr l : toks (RArr l) = between OArray (sep_toks [TSep] (map toks l)).
Proof. unfold toks. cbn [spaced]. rewrite sol_between, sol_sep, map_sol. reflexivity. Qed.
Lemma t_tup l : toks (RTup l) = between OGroup (concat (map (fun e => toks e ++ [TSep]) l)).
Proof.
  unfold toks. cbn [spaced]. rewrite sol_between, sol_sep. cbn [filter solid]. rewrite sep_nil, map_map. f_equal. f_equal. apply map_ext. intros a. rewrite filter_app. reflexivity.
Qed.
Lemma t_field e x : toks (RField e x) = toks e ++ [TDot x].
Proof. unfold toks. cbn [spaced]. rewrite filter_app. reflexivity. Qed.
Lemma t_index e i : toks (RIndex e i) = toks e ++ between OArray (toks i).
Proof. unfold toks. cbn [spaced]. rewrite filter_app, sol_between. reflexivity. Qed.
Lemma t_bin op l r : toks (RBin op l r) = toks l ++ TOp op :: toks r.
Proof. unfold toks. cbn [spaced]. rewrite filter_app. reflexivity. Qed.
Definition otoks (o : option rexpr) : list tok := match o with Some e => toks e | None => [] end.
Lemma t_range op l r : toks (RRange op l r) = otoks l ++ TOp op :: otoks r.
Proof. unfold toks. cbn [spaced]. rewrite filter_app. destruct l, r; reflexivity. Qed.
Lemma t_grp e : toks (RGrp e) = between OGroup (toks e).
Proof. apply sol_between. Qed.
Lemma t_cycle e : toks (RCycle e) = between OCycle (toks e).
Proof. apply sol_between. Qed.
Lemma t_try e : toks (RTry e) = between OTry (toks e).
Proof. apply sol_between. Qed.
Lemma t_markup x e : toks (RMarkup x e) = between (OMarkup x) (toks e).
Proof. apply sol_between. Qed.
Lemma t_call f l : toks (RCall f l) = toks f ++ between OGroup (sep_toks [TSep] (map arg_toks l)).
Proof. change (sol (spaced f ++ between OGroup (sep_toks comma (map arg_spaced l))) = toks f ++ between OGroup (sep_toks [TSep] (map arg_toks l))).
  rewrite filter_app, sol_between, sol_sep, map_sol_arg. reflexivity. Qed.
Lemma t_filter b x l : toks (RFilter b x l) = between (OFilter b x) (sep_toks [TSep] (map arg_toks l)).
Proof. change (sol (between (OFilter b x) (sep_toks comma (map arg_spaced l))) = between (OFilter b x) (sep_toks [TSep] (map arg_toks l))). rewrite sol_between, sol_sep, map_sol_arg. reflexivity. Qed.
Lemma t_safe x a : toks (RSafe x a) = between (OSafe x) (arg_toks a).
Proof. change (sol (between (OSafe x) (arg_spaced a)) = between (OSafe x) (arg_toks a)). rewrite sol_between, sol_arg. reflexivity. Qed.
Lemma t_escape x a : toks (REscape x a) = between (OEscape x) (arg_toks a).
Proof. change (sol (between (OEscape x) (arg_spaced a)) = between (OEscape x) (arg_toks a)). rewrite sol_between, sol_arg. reflexivity. Qed.
Lemma t_format x l : toks (RFormat x l) = between (OFormat x) (sep_toks [TSep] (map arg_toks l)).
Proof.
  change (sol (between (OFormat x) (match l with [] => [] | _ => TBlank (lit ", ") :: sep_toks comma (map arg_spaced l) end)) = between (OFormat x) (sep_toks [TSep] (map arg_toks l))).
  rewrite sol_between. destruct l as [|a l]; [reflexivity|]. f_equal. change (sol (TBlank (lit ", ") :: sep_toks comma (map arg_spaced (a :: l)))) with (sol (sep_toks comma (map arg_spaced (a :: l)))).
  rewrite sol_sep, map_sol_arg. reflexivity.
Qed.
Lemma t_join l : toks (RJoin l) = between OJoin (sep_toks [TSep] (map toks l)).
Proof.
  unfold toks at 1. cbn [spaced]. rewrite sol_between. f_equal. destruct l as [|a l]; [reflexivity|]. cbn [map]. rewrite sep_concat, filter_app. f_equal. cbn [filter solid].
  induction l as [|b l IH]; [reflexivity|]. cbn [map concat]. rewrite filter_app, IH. reflexivity.
Qed.

(** The text of the tokens is the text of the expression. *)
Definition texts (ts : list tok) : str := concat (map text ts).
Lemma texts_app a b : texts (a ++ b) = texts a ++ texts b.
Proof. unfold texts. rewrite map_app. apply concat_app. Qed.
Lemma texts_between o ts : texts (between o ts) = opening_text o ++ texts ts ++ closing o.
Proof. unfold between. change (texts (TOpen o :: ts ++ [TClose (closing o)])) with (opening_text o ++ texts (ts ++ [TClose (closing o)])). rewrite texts_app. unfold texts at 2. cbn [map concat text]. rewrite app_nil_r. reflexivity. Qed.
Lemma texts_sep s l : texts (sep_toks s l) = join_with (texts s) (map texts l).
Proof.
  induction l as [|x l IH]; [reflexivity|]. destruct l as [|y l]; [reflexivity|].
  change (texts (x ++ s ++ sep_toks s (y :: l)) = texts x ++ texts s ++ join_with (texts s) (map texts (y :: l))). rewrite !texts_app, IH. reflexivity.
Qed.
Lemma texts_arg a : texts (spaced (snd a)) = show (snd a) -> texts (arg_spaced a) = match a with (b, c, e) => show_arg b c (show e) end.
Proof.
  destruct a as [[b c] e]. cbn [snd]. intros H. unfold arg_spaced, show_arg. destruct b, c; cbn [orb]; rewrite ?texts_between, H; cbn [opening_text closing]; rewrite ?app_nil_r, <- ?app_assoc; reflexivity.
Qed.
Lemma texts_args l : PArgs (fun e => texts (spaced e) = show e) l -> map texts (map arg_spaced l) = map (fun a : bool * bool * rexpr => match a with (b, c, e) => show_arg b c (show e) end) l.
Proof. induction 1 as [|a l H _ IH]; [reflexivity|]. cbn [map]. rewrite IH, (texts_arg _ H). reflexivity. Qed.
Lemma texts_list l : Forall (fun e => texts (spaced e) = show e) l -> map texts (map spaced l) = map show l.
Proof. induction 1 as [|a l H _ IH]; [reflexivity|]. cbn [map]. rewrite IH, H. reflexivity. Qed.
Lemma texts_cons t ts : texts (t :: ts) = text t ++ texts ts.
Proof. reflexivity. Qed.
Theorem spaced_text e : texts (spaced e) = show e.
Proof.
  induction e using rexpr_ind'; try (apply app_nil_r).
  - cbn [spaced]. rewrite texts_between, texts_sep, texts_list by assumption. reflexivity.
  - cbn [spaced]. rewrite texts_between, texts_sep, map_map. cbn [show]. f_equal. f_equal. f_equal. clear - H. induction H as [|a l H _ IH]; [reflexivity|]. cbn [map]. rewrite IH. f_equal.
    rewrite texts_app, H. reflexivity.
  - cbn [spaced]. rewrite texts_app, IHe. cbn [show]. f_equal. apply app_nil_r.
  - cbn [spaced]. rewrite texts_app, texts_between, IHe1, IHe2. reflexivity.
  - cbn [spaced]. rewrite texts_cons, IHe. reflexivity.
  - cbn [spaced]. rewrite texts_cons, IHe. reflexivity.
  - cbn [spaced]. rewrite texts_cons, IHe. reflexivity.
  - cbn [spaced]. rewrite texts_app, !texts_cons, IHe1, IHe2. reflexivity.
  - cbn [spaced]. rewrite texts_app, texts_cons. destruct l as [l|], r as [r|]; cbn [POpt] in *; rewrite ?H, ?H0; reflexivity.
  - cbn [spaced]. rewrite texts_between, IHe. reflexivity.
  - cbn [spaced]. rewrite texts_between, IHe. reflexivity.
  - change (texts (spaced e ++ between OGroup (sep_toks comma (map arg_spaced l))) = show (RCall e l)). rewrite texts_app, texts_between, texts_sep, texts_args, IHe by assumption. reflexivity.
  - cbn [spaced]. rewrite texts_between, IHe. reflexivity.
  - change (texts (between (OFilter b x) (sep_toks comma (map arg_spaced l))) = show (RFilter b x l)). rewrite texts_between, texts_sep, texts_args by assumption. cbn [opening_text closing show]. rewrite <- !app_assoc. reflexivity.
  - change (texts (between (OSafe x) (arg_spaced a)) = show (RSafe x a)). rewrite texts_between, texts_arg by assumption. destruct a as [[b c] e']. cbn [opening_text closing show]. rewrite <- !app_assoc. reflexivity.
  - change (texts (between (OEscape x) (arg_spaced a)) = show (REscape x a)). rewrite texts_between, texts_arg by assumption. destruct a as [[b c] e']. cbn [opening_text closing show]. rewrite <- !app_assoc. reflexivity.
  - change (texts (between (OFormat x) (match l with [] => [] | _ => TBlank (lit ", ") :: sep_toks comma (map arg_spaced l) end)) = show (RFormat x l)).
    rewrite texts_between. destruct l as [|a l].
    + cbn [opening_text closing show]. rewrite <- !app_assoc. reflexivity.
    + rewrite texts_cons, texts_sep, texts_args by assumption. cbn [opening_text closing show text]. rewrite <- !app_assoc. reflexivity.
  - cbn [spaced]. rewrite texts_between. cbn [show]. destruct l as [|a l]; [reflexivity|]. inversion H as [|? ? H1 H2]; subst. rewrite texts_app, H1, texts_cons.
    assert (Q : texts (concat (map (fun e => comma ++ spaced e) l)) = concat (map (fun e => lit ", " ++ show e) l)).
    { clear - H2. induction H2 as [|b l H _ IH]; [reflexivity|]. cbn [map concat]. rewrite texts_app, IH, texts_app, H. reflexivity. }
    rewrite Q. cbn [opening_text closing text]. rewrite <- !app_assoc. reflexivity.
  - cbn [spaced]. rewrite texts_between, IHe. reflexivity.
Qed.

(** ** Every tree whose operands bind strongly enough is read *)
(** What may follow an operand of strength [j]. *)
Definition follow (j : nat) (ts : list tok) : Prop :=
  match ts with
  | TAtom _ :: _ | TOpen _ :: _ | TDot _ :: _ => False
  | TOp op :: _ => (exists p, In (op, p) precedence /\ (p <= j)%nat) \/ (In op range_ops /\ (1 <= j)%nat)
  | _ => True
  end.
Lemma follow_mono j j' ts : (j <= j')%nat -> follow j ts -> follow j' ts.
Proof. intros L. destruct ts as [|[] ts]; cbn; auto. intros [(p & I & Q)|[I Q]]; [left; exists p; split; [exact I|lia]|right; split; [exact I|lia]]. Qed.
Lemma follow_end j k ts : follow j ts -> (j < k)%nat -> no_operator k ts.
Proof.
  intros H L. destruct ts as [|[] ts]; cbn in *; auto. destruct H as [(p & I & Q)|[I Q]].
  - split; [|intros R; destruct (prec_not_range _ _ I R)]. intros p' I'. rewrite (prec_fun _ _ _ I' I). lia.
  - split; [|lia]. intros p' I'. destruct (prec_not_range _ _ I' I).
Qed.
Lemma follow_suffix j ts : follow j ts -> no_suffix ts.
Proof. destruct ts as [|[] ts]; cbn; auto. destruct o; auto. Qed.
Lemma prefix_not_infix op : op = lit "!" -> (exists p, In (op, p) precedence) \/ In op range_ops -> False.
Proof. intros -> [(p & I)|I]; [apply prec_eq in I as Q; apply prec_range in I; vm_compute in Q; lia|]. destruct I as [I|[I|[]]]; discriminate I. Qed.
Lemma follow_not_starts ts : follow 0 ts -> ~ starts ts.
Proof. destruct ts as [|[] ts]; cbn; auto. intros [(p & I & Q)|[I Q]]; [apply prec_range in I; lia|lia]. Qed.
Definition closed (ts : list tok) : Prop := match ts with TClose _ :: _ | TSep :: _ => True | _ => False end.
Lemma closed_follow j ts : closed ts -> follow j ts.
Proof. destruct ts as [|[] ts]; cbn; auto; contradiction. Qed.
Lemma closed_end ts k : closed ts -> no_operator k ts.
Proof. destruct ts as [|[] ts]; cbn; auto; contradiction. Qed.

Definition prefixy (e : rexpr) : Prop := match e with RBin _ _ _ | RRange _ _ _ => False | _ => True end.
Definition is_read (e : rexpr) : Prop := grammatical e ->
  ((11 <= firmness e)%nat -> forall s e' s', Suffix e s e' s' -> exists e0 t1, Primary (toks e ++ s) e0 t1 /\ Suffix e0 t1 e' s') /\
  (prefixy e -> forall s, follow (firmness e) s -> Prefix (toks e ++ s) e s) /\
  (forall k s e' s', (k <= firmness e)%nat -> follow (firmness e) s -> More k e s e' s' -> Reads k (toks e ++ s) e' s').
Lemma read_full e s : is_read e -> grammatical e -> closed s -> Reads 0 (toks e ++ s) e s.
Proof. intros H G C. destruct (H G) as (_ & _ & H3). apply H3; [lia|apply closed_follow, C|apply mo_end, closed_end, C]. Qed.
Lemma read_at k e s : is_read e -> grammatical e -> (k < firmness e)%nat -> follow k s -> Reads (S k) (toks e ++ s) e s.
Proof. intros H G L F. destruct (H G) as (_ & _ & H3). apply H3; [exact L|eapply follow_mono; [|exact F]; lia|apply mo_end; eapply follow_end; [exact F|lia]]. Qed.
(** From the reading as a primary. *)
Lemma read_prefixy e : prefixy e -> ((1 <= firmness e)%nat \/ range_first e = true) -> (grammatical e -> forall s, follow (firmness e) s -> Prefix (toks e ++ s) e s) -> firmness e <> 11%nat -> (firmness e <= 10)%nat -> is_read e.
Proof.
  intros P FF H N1 L G. split; [lia|]. split; [intros _; apply H, G|]. intros k s e' s' K F M. eapply rd_operand; [apply H; [exact G|exact F]| |exact M].
  intros R. apply firm_rf in R. lia.
Qed.
Lemma read_tight e : firmness e = 11%nat ->
  (grammatical e -> forall s e' s', Suffix e s e' s' -> exists e0 t1, Primary (toks e ++ s) e0 t1 /\ Suffix e0 t1 e' s') -> is_read e.
Proof.
  intros E H G. assert (P : prefixy e). { destruct e; try exact I; cbn [firmness] in E; [|discriminate E]. inversion G as [| | | | | | | | | | | | | | | | | |? p ? ? HI| | | | | | |]; subst. rewrite (prec_eq _ _ HI) in E. apply prec_range in HI. lia. }
  assert (H2 : forall s, follow (firmness e) s -> Prefix (toks e ++ s) e s).
  { intros s F. destruct (H G s e s) as (e0 & t1 & H1 & H2); [apply su_end; eapply follow_suffix; exact F|]. eapply px_operand; eassumption. }
  split; [intros _; apply H, G|]. split; [intros _; exact H2|]. intros k s e' s' K F M. eapply rd_operand; [apply H2, F| |exact M]. intros R. apply firm_rf in R. lia.
Qed.
Lemma read_primary e : firmness e = 11%nat -> (grammatical e -> forall s, Primary (toks e ++ s) e s) -> is_read e.
Proof. intros E H. apply read_tight; [exact E|]. intros G s e' s' S. exists e, s. split; [apply H, G|exact S]. Qed.
Lemma between_app o ts s : between o ts ++ s = TOpen o :: ts ++ TClose (closing o) :: s.
Proof. unfold between. cbn [app]. rewrite <- app_assoc. reflexivity. Qed.
Lemma read_item a s : is_read (snd a) -> grammatical (snd a) -> closed s -> Item (arg_toks a ++ s) a s.
Proof.
  destruct a as [[b c] e]. cbn [snd]. intros H G C. unfold arg_toks. destruct (b || c) eqn:E.
  - rewrite between_app. apply im_in; [exact E|]. apply read_full; [exact H|exact G|exact I].
  - apply orb_false_elim in E as [-> ->]. apply im_bare. apply read_full; assumption.
Qed.
Lemma read_items o l s : PArgs is_read l -> Forall (fun a => grammatical (snd a)) l -> Items o (sep_toks [TSep] (map arg_toks l) ++ TClose (closing o) :: s) l s.
Proof.
  induction 1 as [|a l H HL IH]; intros G; [apply it_end|]. inversion G as [|? ? G1 G2]; subst. destruct l as [|b l].
  - cbn [map sep_toks]. apply it_last. apply read_item; [exact H|exact G1|exact I].
  - change (Items o ((arg_toks a ++ [TSep] ++ sep_toks [TSep] (map arg_toks (b :: l))) ++ TClose (closing o) :: s) (a :: b :: l) s). rewrite <- !app_assoc.
    eapply it_more; [apply read_item; [exact H|exact G1|exact I]|]. apply IH, G2.
Qed.
Lemma arg_plain l : map arg_toks (map (pair (false, false)) l) = map toks l.
Proof. rewrite map_map. reflexivity. Qed.
Lemma read_list o l s : Forall is_read l -> Forall grammatical l -> Items o (sep_toks [TSep] (map toks l) ++ TClose (closing o) :: s) (map (pair (false, false)) l) s.
Proof.
  intros H G. rewrite <- arg_plain. apply read_items; unfold PArgs; apply Forall_map; [exact H|exact G].
Qed.
Lemma read_elements l s : Forall is_read l -> Forall grammatical l -> Elements (concat (map (fun e => toks e ++ [TSep]) l) ++ TClose (closing OGroup) :: s) l s.
Proof.
  induction 1 as [|a l H HL IH]; intros G; [apply el_end|]. inversion G as [|? ? G1 G2]; subst. cbn [map concat]. rewrite <- !app_assoc.
  eapply el_more; [apply read_full; [exact H|exact G1|exact I]|]. apply IH, G2.
Qed.
Lemma starts_app e s : grammatical e -> starts (toks e ++ s).
Proof.
  revert s. induction e using rexpr_ind'; intros z G; try exact I; inversion G; subst.
  - rewrite t_field, <- app_assoc. apply IHe. assumption.
  - rewrite t_index, <- app_assoc. apply IHe1. assumption.
  - left. reflexivity.
  - left. reflexivity.
  - right. left. reflexivity.
  - right. right. left. assumption.
  - rewrite t_bin, <- app_assoc. apply IHe1. assumption.
  - rewrite t_range, <- app_assoc. destruct l as [l|]; [apply H; apply (proj2 (H6 l eq_refl))|]. right. right. right. assumption.
  - rewrite t_call, <- app_assoc. apply IHe. assumption.
Qed.
Lemma read_right r s : POpt is_read r -> (forall e, r = Some e -> (1 <= firmness e)%nat /\ grammatical e) -> follow 0 s -> Right (otoks r ++ s) r s.
Proof.
  intros H G F. destruct r as [r|].
  - destruct (G r eq_refl) as [L G1]. cbn [otoks]. apply ri_some; [apply starts_app, G1|]. apply read_at; [exact H|exact G1|lia|exact F].
  - apply ri_none. apply follow_not_starts, F.
Qed.
Lemma prefix_range op ts e s : In op range_ops -> Prefix (TOp op :: ts) e s -> False.
Proof.
  intros R P. destruct (range_not_prefix _ R) as (N1 & N2 & N3). inversion P; subst; try contradiction. match goal with H : Primary _ _ _ |- _ => inversion H end.
Qed.
Lemma follow_0 s : follow 0 s -> no_operator 0 s.
Proof. destruct s as [|[] s]; cbn; auto. intros [(p & I & Q)|[I Q]]; [apply prec_range in I; lia|lia]. Qed.
Lemma not_weak e : grammatical e -> (10 <= firmness e)%nat -> prefixy e.
Proof.
  intros G L. destruct e; try exact I; [|cbn in L; lia]. inversion G as [| | | | | | | | | | | | | | | | | |? p ? ? HI| | | | | | |]; subst. cbn [firmness] in L. rewrite (prec_eq _ _ HI) in L. apply prec_range in HI. lia.
Qed.
Theorem read_all e : is_read e.
Proof.
  induction e using rexpr_ind'.
  - apply read_primary; [reflexivity|]. intros G s'. inversion G; subst. apply pr_atom. assumption.
  - apply read_primary; [reflexivity|]. intros G s'. apply pr_atom. exact I.
  - apply read_primary; [reflexivity|]. intros G s'. apply pr_atom. exact I.
  - apply read_primary; [reflexivity|]. intros G s'. apply pr_atom. exact I.
  - apply read_primary; [reflexivity|]. intros G s'. apply pr_atom. exact I.
  - apply read_primary; [reflexivity|]. intros G s'. inversion G; subst. rewrite t_arr, between_app. apply pr_array, read_list; assumption.
  - apply read_primary; [reflexivity|]. intros G s'. inversion G; subst. rewrite t_tup, between_app. apply pr_tuple, read_elements; assumption.
  - apply read_tight; [reflexivity|]. intros G s e' s' S. inversion G; subst. rewrite t_field, <- app_assoc. apply (proj1 (IHe H3)); [exact H2|]. apply su_field; assumption.
  - apply read_tight; [reflexivity|]. intros G s e' s' S. inversion G; subst. rewrite t_index, <- app_assoc, between_app. match goal with G1 : grammatical e1 |- _ => apply (proj1 (IHe1 G1)) end; [assumption|].
    eapply su_index; [apply read_full; [exact IHe2|assumption|exact I]|exact S].
  - assert (Q : grammatical (RRef e) -> forall s, follow (firmness (RRef e)) s -> Prefix (toks (RRef e) ++ s) (RRef e) s).
    { intros G s F. cbn [firmness] in F. assert (GE : grammatical e) by (inversion G; subst; assumption). destruct (IHe GE) as (_ & H2 & _).
      destruct (range_first e) eqn:R.
      - destruct e; try discriminate R.
        + apply px_ref, H2; [exact I|]. cbn [firmness]. cbn [range_first] in R. rewrite R. exact F.
        + destruct l as [l|]; [discriminate R|]. inversion GE; subst. change (toks (RRef (RRange op None r))) with (TOp (lit "&") :: toks (RRange op None r)). rewrite t_range.
          destruct (IHe GE) as (_ & _ & HQ). specialize (HQ 0%nat s _ s (le_n 0) F (mo_end _ _ _ (follow_0 _ F))). rewrite t_range in HQ. cbn [otoks app] in HQ. inversion HQ; subst.
          * apply px_ref_range; assumption.
          * match goal with P : Prefix _ _ _, R : In _ range_ops |- _ => destruct (prefix_range _ _ _ _ R P) end.
      - assert (L : (10 <= firmness e)%nat) by (inversion G; subst; [assumption|congruence]). apply px_ref, H2; [apply not_weak; assumption|eapply follow_mono; [|exact F]; lia]. }
    intros G. split; [|split; [intros _; exact (Q G)|]].
    + cbn [firmness]. destruct (range_first e); lia.
    + intros k s e' s' K F M. eapply rd_operand; [apply Q; [exact G|exact F]| |exact M]. intros R. apply firm_rf in R. lia.
  - apply read_prefixy; [exact I|left; cbn; lia| |discriminate|cbn; lia]. intros G s F. inversion G; subst. match goal with G1 : grammatical e |- _ => destruct (IHe G1) as (_ & H2 & _) end. apply px_deref; [apply rf_firm; lia|].
    apply H2; [apply not_weak; assumption|]. cbn [firmness] in F. eapply follow_mono; [|exact F]. assumption.
  - apply read_prefixy; [exact I|left; cbn; lia| |discriminate|cbn; lia]. intros G s F. inversion G; subst. match goal with G1 : grammatical e |- _ => destruct (IHe G1) as (_ & H2' & _) end. apply px_un; [assumption|apply rf_firm; lia|].
    apply H2'; [apply not_weak; assumption|]. cbn [firmness] in F. eapply follow_mono; [|exact F]. assumption.
  - intros G. inversion G as [| | | | | | | | | | | | | | | | | |? p ? ? HI HL HC HR GL GR| | | | | | |]; subst. pose proof (prec_range _ _ HI) as PR.
    assert (EF : firmness (RBin o e1 e2) = p) by (cbn [firmness]; apply prec_eq, HI). rewrite EF. split; [lia|]. split; [intros []|]. intros k s e' s' K F M.
    rewrite t_bin, <- app_assoc. destruct (IHe1 GL) as (_ & _ & H3). apply H3; [lia|left; exists p; split; [exact HI|lia]|].
    eapply mo_bin; [exact HI|exact K|apply rf_firm; lia| |apply read_at; [exact IHe2|exact GR|exact HR|exact F]|exact M].
    intros E C. apply (comparison_firm _ GL) in C. specialize (HC E). lia.
  - intros G. inversion G as [| | | | | | | | | | | | | | | | | | |? ? ? HI HO HL HR| | | | | |]; subst. split; [cbn; lia|]. split; [intros []|]. intros k s e' s' K F M. cbn [firmness] in K, F.
    assert (k = 0)%nat by lia. subst k. assert (e' = RRange o l r /\ s' = s) as [-> ->].
    { inversion M; subst; [| |split; reflexivity]; cbn in F; destruct F as [(p' & I' & Q)|[I' Q]]; try lia; apply prec_range in I'; lia. }
    pose proof (read_right r s H0 HR F) as HRi. rewrite t_range, <- app_assoc. destruct l as [l|]; [|apply rd_range; assumption].
    destruct (HL l eq_refl) as [L1 G1]. cbn [POpt] in H. destruct (H G1) as (_ & _ & H3). cbn [otoks]. apply H3; [lia|right; split; assumption|]. apply mo_range; [exact HI|apply rf_firm; lia|exact HO|exact HRi].
  - apply read_primary; [reflexivity|]. intros G s. inversion G; subst. rewrite t_grp, between_app. apply pr_group. apply read_full; [assumption|assumption|exact I].
  - apply read_primary; [reflexivity|]. intros G s. inversion G; subst. rewrite t_cycle, between_app. apply pr_cycle. apply read_full; [assumption|assumption|exact I].
  - apply read_tight; [reflexivity|]. intros G s e' s' S. inversion G; subst. rewrite t_call, <- app_assoc, between_app. match goal with G1 : grammatical e |- _ => apply (proj1 (IHe G1)) end; [assumption|].
    eapply su_call; [apply read_items; assumption|exact S].
  - apply read_primary; [reflexivity|]. intros G s. apply pr_atom. exact I.
  - apply read_primary; [reflexivity|]. intros G s. inversion G; subst. rewrite t_try, between_app. apply pr_try. apply read_full; [assumption|assumption|exact I].
  - apply read_primary; [reflexivity|]. intros G s. inversion G; subst. rewrite t_filter, between_app. apply pr_filter, read_items; assumption.
  - apply read_primary; [reflexivity|]. intros G s. inversion G; subst. rewrite t_safe, between_app. apply pr_safe. apply it_last. apply read_item; [assumption|assumption|exact I].
  - apply read_primary; [reflexivity|]. intros G s. inversion G; subst. rewrite t_escape, between_app. apply pr_escape. apply it_last. apply read_item; [assumption|assumption|exact I].
  - apply read_primary; [reflexivity|]. intros G s. inversion G; subst. rewrite t_format, between_app. apply pr_format, read_items; assumption.
  - apply read_primary; [reflexivity|]. intros G s. inversion G; subst. rewrite t_join, between_app. apply pr_join, read_list; assumption.
  - apply read_primary; [reflexivity|]. intros G s. inversion G; subst. rewrite t_markup, between_app. apply pr_markup. apply read_full; [assumption|assumption|exact I].
Qed.

(** ** At most one tree is read *)
Scheme Reads_m := Minimality for Reads Sort Prop
with More_m := Minimality for More Sort Prop
with Right_m := Minimality for Right Sort Prop
with Prefix_m := Minimality for Prefix Sort Prop
with Suffix_m := Minimality for Suffix Sort Prop
with Primary_m := Minimality for Primary Sort Prop
with Elements_m := Minimality for Elements Sort Prop
with Items_m := Minimality for Items Sort Prop
with Item_m := Minimality for Item Sort Prop.
Combined Scheme reader_ind from Reads_m, More_m, Right_m, Prefix_m, Suffix_m, Primary_m, Elements_m, Items_m, Item_m.
Lemma pair_inj (l l' : list rexpr) : map (pair (false, false)) l = map (pair (false, false)) l' -> l = l'.
Proof. revert l'. induction l as [|a l IH]; intros [|b l'] H; try discriminate H; [reflexivity|]. injection H as <- H. f_equal. apply IH, H. Qed.
Lemma no_prefix_prec op p ts k : In (op, p) precedence -> (k <= p)%nat -> no_operator k (TOp op :: ts) -> False.
Proof. intros I L [H _]. specialize (H p I). lia. Qed.
Lemma no_prefix_range op ts : In op range_ops -> no_operator 0 (TOp op :: ts) -> False.
Proof. intros I [_ H]. specialize (H I). lia. Qed.
Lemma reads_close c ts k e s : Reads k (TClose c :: ts) e s -> False.
Proof. intros H. inversion H; subst. inversion H0; subst. inversion H3. Qed.
Lemma reads_arg b c ts k e s : Reads k (TOpen (OArg b c) :: ts) e s -> False.
Proof. intros H. inversion H; subst. inversion H0; subst. inversion H3. Qed.
Lemma item_close c ts a s : Item (TClose c :: ts) a s -> False.
Proof. intros H. inversion H; subst. eapply reads_close; eassumption. Qed.
Ltac apart := match goal with
  | R : Item (TClose _ :: _) _ _ |- _ => destruct (item_close _ _ _ _ R)
  | R : In ?op range_ops, P : Prefix (TOp ?op :: _) _ _ |- _ => destruct (prefix_range _ _ _ _ R P)
  | P : Primary (TOp _ :: _) _ _ |- _ => inversion P
  | I : In (?op, _) precedence, R : In ?op range_ops |- _ => destruct (prec_not_range _ _ I R)
  | I : In (?op, ?p) precedence, L : (?k <= ?p)%nat, Q : no_operator ?k (TOp ?op :: _) |- _ => destruct (no_prefix_prec _ _ _ _ I L Q)
  | R : In ?op range_ops, Q : no_operator 0 (TOp ?op :: _) |- _ => destruct (no_prefix_range _ _ R Q)
  | R : In (lit "&") range_ops |- _ => destruct (range_not_prefix _ R) as (? & _); congruence
  | R : In (lit "&") unary_ops |- _ => destruct (unary_not _ R) as (? & _); congruence
  | R : In (lit "*") unary_ops |- _ => destruct (unary_not _ R) as (_ & ?); congruence
  | E : lit "&" = lit "*" |- _ => discriminate E
  | E : lit "*" = lit "&" |- _ => discriminate E
  | Q : no_suffix (TDot _ :: _) |- _ => destruct Q
  | Q : no_suffix (TOpen _ :: _) |- _ => destruct Q
  | R : Reads _ (TClose _ :: _) _ _ |- _ => destruct (reads_close _ _ _ _ _ R)
  | R : Reads _ (TOpen (OArg _ _) :: _) _ _ |- _ => destruct (reads_arg _ _ _ _ _ _ R)
  end.
Ltac same := match goal with
  | IH : forall e' s', Reads ?k ?ts e' s' -> _, H : Reads ?k ?ts _ _ |- _ => apply IH in H; destruct H as [? ?]
  | IH : forall e' s', More ?k ?e ?ts e' s' -> _, H : More ?k ?e ?ts _ _ |- _ => apply IH in H; destruct H as [? ?]
  | IH : forall e' s', Right ?ts e' s' -> _, H : Right ?ts _ _ |- _ => apply IH in H; destruct H as [? ?]
  | IH : forall e' s', Prefix ?ts e' s' -> _, H : Prefix ?ts _ _ |- _ => apply IH in H; destruct H as [? ?]
  | IH : forall e' s', Suffix ?e ?ts e' s' -> _, H : Suffix ?e ?ts _ _ |- _ => apply IH in H; destruct H as [? ?]
  | IH : forall e' s', Primary ?ts e' s' -> _, H : Primary ?ts _ _ |- _ => apply IH in H; destruct H as [? ?]
  | IH : forall e' s', Elements ?ts e' s' -> _, H : Elements ?ts _ _ |- _ => apply IH in H; destruct H as [? ?]
  | IH : forall e' s', Items ?o ?ts e' s' -> _, H : Items ?o ?ts _ _ |- _ => apply IH in H; destruct H as [? ?]
  | IH : forall e' s', Item ?ts e' s' -> _, H : Item ?ts _ _ |- _ => apply IH in H; destruct H as [? ?]
  | E : ?a :: ?b = ?c :: ?d |- _ => injection E; clear E; intros
  | E : map (pair (false, false)) _ = map (pair (false, false)) _ |- _ => apply pair_inj in E
  | I : In (?op, ?p) precedence, J : In (?op, ?p') precedence |- _ => tryif constr_eq p p' then fail else (pose proof (prec_fun _ _ _ I J); subst p')
  end; subst.
Theorem reads_once :
  (forall k ts e s, Reads k ts e s -> forall e' s', Reads k ts e' s' -> e = e' /\ s = s') /\
  (forall k e0 ts e s, More k e0 ts e s -> forall e' s', More k e0 ts e' s' -> e = e' /\ s = s') /\
  (forall ts r s, Right ts r s -> forall r' s', Right ts r' s' -> r = r' /\ s = s') /\
  (forall ts e s, Prefix ts e s -> forall e' s', Prefix ts e' s' -> e = e' /\ s = s') /\
  (forall e0 ts e s, Suffix e0 ts e s -> forall e' s', Suffix e0 ts e' s' -> e = e' /\ s = s') /\
  (forall ts e s, Primary ts e s -> forall e' s', Primary ts e' s' -> e = e' /\ s = s') /\
  (forall ts l s, Elements ts l s -> forall l' s', Elements ts l' s' -> l = l' /\ s = s') /\
  (forall o ts l s, Items o ts l s -> forall l' s', Items o ts l' s' -> l = l' /\ s = s') /\
  (forall ts a s, Item ts a s -> forall a' s', Item ts a' s' -> a = a' /\ s = s').
Proof.
  cut ((forall k ts e s, Reads k ts e s -> forall e' s', Reads k ts e' s' -> e = e' /\ s = s') /\
    (forall k e0 ts e s, More k e0 ts e s -> forall e' s', More k e0 ts e' s' -> e = e' /\ s = s') /\
    (forall ts r s, Right ts r s -> forall r' s', Right ts r' s' -> r = r' /\ s = s') /\
    (forall ts e s, Prefix ts e s -> forall e' s', Prefix ts e' s' -> e = e' /\ s = s') /\
    (forall e0 ts e s, Suffix e0 ts e s -> forall e' s', Suffix e0 ts e' s' -> e = e' /\ s = s') /\
    (forall ts e s, Primary ts e s -> forall e' s', Primary ts e' s' -> e = e' /\ s = s') /\
    (forall ts l s, Elements ts l s -> (forall l' s', Elements ts l' s' -> l = l' /\ s = s') /\ (forall e c s', Reads 0 ts e (TClose c :: s') -> False)) /\
    (forall o ts l s, Items o ts l s -> forall l' s', Items o ts l' s' -> l = l' /\ s = s') /\
    (forall ts a s, Item ts a s -> forall a' s', Item ts a' s' -> a = a' /\ s = s')).
  { intros (H1 & H2 & H3 & H4 & H5 & H6 & H7 & H8 & H9). repeat (split; [assumption|]). split; [|split; assumption]. intros ts l s E. exact (proj1 (H7 ts l s E)). }
  apply reader_ind; intros; try match goal with H : _ /\ _ |- _ => destruct H as [HEl HNo] end;
  try match goal with |- _ /\ (forall e c s', Reads _ _ _ _ -> _) => split; [intros|intros; try apart; repeat same; try congruence] end;
  match goal with H : _ ?ts ?e ?s |- ?e0 = ?e /\ ?s0 = ?s => inversion H; subst; clear H | _ => idtac end; try apart; try solve [exfalso; eapply HNo; eassumption];
    try match goal with E : Elements ?ts _ _, IH : forall e' s', Reads 0 ?ts e' s' -> _ |- RGrp _ = RTup _ /\ _ => inversion E; subst; clear E; try apart end;
    repeat same; try congruence; try (split; reflexivity); try contradiction.
Qed.

(** ** Only such trees are read *)
Lemma g_pairs l : Forall (fun a : bool * bool * rexpr => grammatical (snd a)) (map (pair (false, false)) l) -> Forall grammatical l.
Proof. rewrite Forall_map. auto. Qed.
Definition tail_ok (e : rexpr) (ts : list tok) : Prop :=
  range_first e = false -> match ts with TOp op :: _ => forall p, In (op, p) precedence -> (p <= firmness e)%nat | _ => True end.
Lemma ref_firm e : range_first e = true \/ (10 <= firmness e)%nat -> grammatical e -> grammatical (RRef e) /\ (range_first (RRef e) = true \/ (10 <= firmness (RRef e))%nat).
Proof. intros [H|H] G; (split; [|]). - apply g_ref_range; assumption. - left. exact H. - apply g_ref; assumption. - cbn [firmness range_first]. destruct (range_first e); [left; reflexivity|right; lia]. Qed.
Theorem reads_only :
  (forall k ts e s, Reads k ts e s -> (k <= 10)%nat -> ts = toks e ++ s /\ grammatical e /\ (k <= firmness e)%nat /\ ((1 <= k)%nat -> no_operator k s)) /\
  (forall k e0 ts e s, More k e0 ts e s -> (k <= 10)%nat -> grammatical e0 -> (k <= firmness e0)%nat -> tail_ok e0 ts -> (range_first e0 = false -> (1 <= firmness e0)%nat) ->
     toks e0 ++ ts = toks e ++ s /\ grammatical e /\ (k <= firmness e)%nat /\ ((1 <= k)%nat -> no_operator k s)) /\
  (forall ts r s, Right ts r s -> ts = otoks r ++ s /\ forall e, r = Some e -> (1 <= firmness e)%nat /\ grammatical e) /\
  (forall ts e s, Prefix ts e s -> ts = toks e ++ s /\ grammatical e /\ (range_first e = true \/ (10 <= firmness e)%nat)) /\
  (forall e0 ts e s, Suffix e0 ts e s -> grammatical e0 -> firmness e0 = 11%nat -> toks e0 ++ ts = toks e ++ s /\ grammatical e /\ firmness e = 11%nat) /\
  (forall ts e s, Primary ts e s -> ts = toks e ++ s /\ grammatical e /\ firmness e = 11%nat) /\
  (forall ts l s, Elements ts l s -> ts = concat (map (fun e => toks e ++ [TSep]) l) ++ TClose (closing OGroup) :: s /\ Forall grammatical l) /\
  (forall o ts l s, Items o ts l s -> ts = sep_toks [TSep] (map arg_toks l) ++ TClose (closing o) :: s /\ Forall (fun a => grammatical (snd a)) l) /\
  (forall ts a s, Item ts a s -> ts = arg_toks a ++ s /\ grammatical (snd a)).
Proof.
  apply reader_ind.
  - intros op ts r s R N _ [E G] _. rewrite t_range. cbn [otoks app]. rewrite E. split; [reflexivity|]. split; [apply g_range; auto; discriminate|]. split; lia.
  - intros k ts e0 ts1 e s _ (-> & G & F) K _ IH L. apply IH; [exact L|exact G| | |].
    + destruct F as [F|F]; [rewrite (K F); lia|lia].
    + intros R. destruct F as [F|F]; [congruence|]. destruct ts1 as [|[] ts1]; auto. intros p I. apply prec_range in I. lia.
    + intros R. destruct F as [F|F]; [congruence|lia].
  - intros k e op p ts r ts1 e' s I K R C _ IR _ IM L G F T O. pose proof (prec_range _ _ I) as PR. destruct (IR ltac:(lia)) as (-> & Gr & Fr & NO).
    assert (Fe : (p <= firmness e)%nat) by (apply (T R); exact I).
    assert (GB : grammatical (RBin op e r)). { eapply g_bin; [exact I|exact Fe| |lia|exact G|exact Gr]. intros ->. assert (firmness e <> 3%nat); [|lia]. intros Q. apply (C eq_refl). apply comparison_firm; assumption. }
    assert (FB : firmness (RBin op e r) = p) by (cbn [firmness]; apply prec_eq, I).
    destruct IM as (E & H2 & H3 & H4); [exact L|exact GB|lia| |lia|].
    + intros _. specialize (NO ltac:(lia)). destruct ts1 as [|[] ts1]; auto. intros p' I'. destruct NO as [NO _]. specialize (NO p' I'). lia.
    + split; [|auto]. rewrite <- E, t_bin, <- app_assoc. reflexivity.
  - intros e op ts r s R F N _ [-> G] _ Ge _ _ O. rewrite t_range, <- app_assoc. split; [reflexivity|]. split; [|split; lia]. apply g_range; auto. intros x [= <-]. split; [apply O, F|exact Ge].
  - intros k e ts N _ G F _ _. auto.
  - intros ts e s _ _ IH. destruct (IH ltac:(lia)) as (-> & G & F & _). split; [reflexivity|]. intros x [= <-]. auto.
  - intros ts _. split; [reflexivity|]. discriminate.
  - intros ts e s _ (-> & G & F). destruct (ref_firm e F G). split; [reflexivity|]. auto.
  - intros op ts r s R N _ [-> G]. split; [change (toks (RRef (RRange op None r))) with (TOp (lit "&") :: toks (RRange op None r)); rewrite t_range; reflexivity|].
    split; [apply g_ref_range; [reflexivity|]; apply g_range; auto; discriminate|left; reflexivity].
  - intros ts e s R _ (-> & G & F). split; [reflexivity|]. destruct F as [F|F]; [congruence|]. split; [apply g_deref; assumption|right; cbn; lia].
  - intros op ts e s U R _ (-> & G & F). split; [reflexivity|]. destruct F as [F|F]; [congruence|]. split; [apply g_un; assumption|right; cbn; lia].
  - intros ts e0 ts1 e s _ (-> & G & F) _ IH. destruct (IH G F) as (E & G' & F'). split; [exact E|]. split; [exact G'|right; lia].
  - intros e x ts e' s N _ IH G F. destruct IH as (E & H); [apply g_field; [exact N|lia|exact G]|reflexivity|]. split; [|exact H]. rewrite <- E, t_field, <- app_assoc. reflexivity.
  - intros e ts i ts1 e' s _ IR _ IH G F. destruct (IR ltac:(lia)) as (-> & Gi & _). destruct IH as (E & H); [apply g_index; [lia|exact G|exact Gi]|reflexivity|]. split; [|exact H].
    rewrite <- E, t_index, <- app_assoc, between_app. reflexivity.
  - intros e ts l ts1 e' s _ [-> GL] _ IH G F. destruct IH as (E & H); [apply g_call; [lia|exact G|exact GL]|reflexivity|]. split; [|exact H].
    rewrite <- E, t_call, <- app_assoc, between_app. reflexivity.
  - auto.
  - intros e ts A. destruct e; try contradiction; (split; [reflexivity|]); (split; [constructor|reflexivity]). exact A.
  - intros ts e s _ IR. destruct (IR ltac:(lia)) as (-> & G & _). rewrite t_grp, between_app. split; [reflexivity|]. split; [constructor; exact G|reflexivity].
  - intros ts l s _ [-> G]. rewrite t_tup, between_app. split; [reflexivity|]. split; [constructor; exact G|reflexivity].
  - intros ts l s _ [-> G]. rewrite t_arr, between_app, arg_plain. split; [reflexivity|]. split; [apply g_arr; apply g_pairs; exact G|reflexivity].
  - intros ts e s _ IR. destruct (IR ltac:(lia)) as (-> & G & _). rewrite t_cycle, between_app. split; [reflexivity|]. split; [constructor; exact G|reflexivity].
  - intros ts e s _ IR. destruct (IR ltac:(lia)) as (-> & G & _). rewrite t_try, between_app. split; [reflexivity|]. split; [constructor; exact G|reflexivity].
  - intros b x ts l s _ [-> G]. rewrite t_filter, between_app. split; [reflexivity|]. split; [constructor; exact G|reflexivity].
  - intros x ts a s _ [-> G]. rewrite t_safe, between_app. split; [reflexivity|]. split; [constructor; inversion G; assumption|reflexivity].
  - intros x ts a s _ [-> G]. rewrite t_escape, between_app. split; [reflexivity|]. split; [constructor; inversion G; assumption|reflexivity].
  - intros x ts l s _ [-> G]. rewrite t_format, between_app. split; [reflexivity|]. split; [constructor; exact G|reflexivity].
  - intros ts l s _ [-> G]. rewrite t_join, between_app, arg_plain. split; [reflexivity|]. split; [apply g_join; apply g_pairs; exact G|reflexivity].
  - intros x ts e s _ IR. destruct (IR ltac:(lia)) as (-> & G & _). rewrite t_markup, between_app. split; [reflexivity|]. split; [constructor; exact G|reflexivity].
  - intros s. split; [reflexivity|constructor].
  - intros ts e ts1 l s _ IR _ [-> GL]. destruct (IR ltac:(lia)) as (-> & G & _). split; [|constructor; assumption]. cbn [map concat]. rewrite <- !app_assoc. reflexivity.
  - intros o s. split; [reflexivity|constructor].
  - intros o ts a s _ [-> G]. split; [reflexivity|constructor; [exact G|constructor]].
  - intros o ts a ts1 a' l s _ [-> G] _ [-> GL]. split; [|constructor; assumption].
    change (map arg_toks (a :: a' :: l)) with (arg_toks a :: map arg_toks (a' :: l)). 
    change (sep_toks [TSep] (arg_toks a :: map arg_toks (a' :: l))) with (arg_toks a ++ [TSep] ++ sep_toks [TSep] (map arg_toks (a' :: l))). rewrite <- !app_assoc. reflexivity.
  - intros ts e s _ IR. destruct (IR ltac:(lia)) as (-> & G & _). auto.
  - intros b c ts e s B _ IR. destruct (IR ltac:(lia)) as (-> & G & _). split; [|exact G]. unfold arg_toks. rewrite B, between_app. reflexivity.
Qed.
(** The reader reads exactly the trees whose operands bind strongly enough. *)
Theorem reads_iff k e : (k <= 10)%nat -> Reads k (toks e) e [] <-> grammatical e /\ (k <= firmness e)%nat.
Proof.
  intros L. split.
  - intros H. apply (proj1 reads_only) in H as (_ & G & F & _); auto.
  - intros [G F]. rewrite <- (app_nil_r (toks e)). destruct (read_all e G) as (_ & _ & H). apply H; [exact F|exact I|apply mo_end; exact I].
Qed.
Theorem reads_toks k ts e : (k <= 10)%nat -> Reads k ts e [] -> ts = toks e.
Proof. intros L H. apply (proj1 reads_only) in H as (-> & _); [apply app_nil_r|exact L]. Qed.
