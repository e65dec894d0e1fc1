(** * The code generated for a template put together.
    [cg_list m b ts code m' b']: with the scopes [m] and the pending output [b], the generator turns [ts] into [code] and ends
    with [m'] and [b'].  This is the generator seen from the side of RefSem.v: whitespace control, macros, blocks and
    includes are already resolved.  GenElab.v proves that the generator does this; Sim.v that it is right. *)
From Verif Require Import Base Ws Ast Ident IdentFacts GenExpr Heritage Gen Sem RefSem Scoped HeritageFacts SimExpr SimFacts.
Local Open Scope N_scope.

Section Steps.
  Variable inp : ginput.
  (** Flushing the buffer *)
  Definition parts_code (p : wparts) : list stmt :=
    match p with NoParts => [] | LitParts s => [SWriteStr s] | FmtParts f a => [SWriteFmt f a] end.
  Definition flushed (m : chain) (b : list writable) (code : list stmt) : Prop :=
    exists named z parts named', prepare_format inp m b named = Ok (z, parts, named') /\ code = parts_code parts.

  (** The arguments of a macro call, paired with the parameters: as [bind_args] *)
  Fixpoint bind_pairs (m : chain) (l : list (str * expr)) : res (chain * list str * list rexpr) :=
    match l with
    | [] => Ok (m, [], [])
    | (p, e) :: l' =>
        let by_value :=
          let! r := visit_expr_root inp m e in
          let! m' := ch_insert m p m_default in
          let! (m'', names, values) := bind_pairs m' l' in
          Ok (m'', p :: names, r :: values) in
        match e with
        | Var x =>
            if str_eqb x (lit "self") then by_value
            else let! m' := ch_insert m p (m_with_ref (ch_resolve_or_self m x)) in bind_pairs m' l'
        | Attr obj attr =>
            let! (r, _) := visit_expr inp m (Attr obj attr) in
            let r := match ch_resolve m (show r) with Some r' => r' | None => r end in
            let! m' := ch_insert m p (m_with_ref r) in bind_pairs m' l'
        | _ => by_value
        end
    end.

  (** The test of a branch; [m] is the scope pushed for the branch. *)
  Definition test_code (m : chain) (t : option cond_test) (rt : rtest) (m' : chain) : Prop :=
    match t with
    | None => rt = RElse /\ m' = m
    | Some c =>
        match ct_target c with
        | None => exists e', visit_expr_root inp m (ct_expr c) = Ok e' /\ rt = RIf e' /\ m' = m
        | Some p =>
            let simple e := exists e' p', visit_expr_root inp m e = Ok e' /\ visit_target m true p = Ok (p', m') /\ rt = RIfLet p' e' in
            match ct_expr c with
            | BinOp op l r =>
                if str_eqb op (lit "||") || str_eqb op (lit "&&") then
                  exists l' p' r', visit_expr_root inp m l = Ok l' /\ visit_target m true p = Ok (p', m') /\
                                   visit_expr_root inp m' r = Ok r' /\ rt = RIfLetChain p' op l' r'
                else simple (BinOp op l r)
            | e => simple e
            end
        end
    end.
  Definition let_stmt (m : chain) (shadowed : bool) (t p : target) (r : rexpr) : stmt :=
    if shadowed || match is_name t with None => true | Some x => match ch_get m x with None => true | Some _ => false end end
    then SLet p r else SAssign p r.
  Definition bind_code (names : list str) (values : list rexpr) : list stmt :=
    match names with [] => [] | _ => [SLetTuple names values] end.

  Inductive cg_list : chain -> list writable -> list tnode -> list stmt -> chain -> list writable -> Prop :=
  | cg_nil m b : cg_list m b [] [] m b
  | cg_cons m b t c m1 b1 ts c' m2 b2 : cg_node m b t c m1 b1 -> cg_list m1 b1 ts c' m2 b2 -> cg_list m b (t :: ts) (c ++ c') m2 b2
  with cg_node : chain -> list writable -> tnode -> list stmt -> chain -> list writable -> Prop :=
  | cg_text m b s : cg_node m b (TText s) [] m (b ++ [WLit s])
  | cg_expr m b e : cg_node m b (TExpr e) [] m (b ++ [WExpr e])
  | cg_declare m b t c p m' : flushed m b c -> visit_target m false t = Ok (p, m') -> cg_node m b (TLet t None) (c ++ [SDeclare p]) m' []
  | cg_let m b t e r (sh : bool) c b1 p m' : visit_expr_root inp m e = Ok r -> is_shadowing_variable m t = Ok sh ->
      (if sh then flushed m b c /\ b1 = [] else c = [] /\ b1 = b) -> visit_target m true t = Ok (p, m') ->
      cg_node m b (TLet t (Some e)) (c ++ [let_stmt m sh t p r]) m' b1
  | cg_if m b c bs rbs m' : flushed m b c -> cg_branches m bs rbs m' -> bs <> [] -> cg_node m b (TIf bs) (c ++ [SIf rbs]) m' []
  | cg_match m b c e r arms rarms m' : flushed m b c -> visit_expr_root inp m e = Ok r -> cg_arms m arms rarms m' ->
      cg_node m b (TMatch e arms) (c ++ [SMatch r rarms]) m' []
  | cg_for m b c it r how t cnd flt m1 p m2 body c1 m3 b3 c1' m4 els c2 m5 b5 c2' m6 tail c3 m7 b7 c3' m8 has_else :
      visit_expr_root inp (ch_push m) it = Ok r -> flushed (ch_push m) b c ->
      match cnd with
      | None => flt = None /\ m1 = ch_push m
      | Some e => exists p0 mc e', visit_target (ch_push (ch_push m)) true t = Ok (p0, mc) /\ visit_expr_root inp mc e = Ok e' /\
                                   ch_pop mc = Ok m1 /\ flt = Some (p0, e')
      end ->
      visit_target (ch_push m1) true t = Ok (p, m2) -> cg_list m2 [] body c1 m3 b3 -> flushed m3 b3 c1' -> ch_pop m3 = Ok m4 ->
      cg_list (ch_push m4) [] els c2 m5 b5 -> flushed m5 b5 c2' -> ch_pop m5 = Ok m6 ->
      cg_list m6 [] tail c3 m7 b7 -> flushed m7 b7 c3' -> ch_pop m7 = Ok m8 -> (has_else = false -> els = [] /\ c2 ++ c2' = []) ->
      cg_node m b (TFor t it cnd body els tail) (c ++ [SLoop has_else r how flt p (c1 ++ c1') (c2 ++ c2') (c3 ++ c3')]) m8 []
  | cg_block m b c body ls c1 m1 b1 c2 b2 : flushed m b c -> cg_list ch_empty [] body c1 m1 b1 ->
      (if ch_is_current_empty m1 then c2 = [] /\ b2 = b1 else flushed m1 b1 c2 /\ b2 = []) ->
      cg_node m b (TBlock (body ++ texts ls)) (c ++ c1 ++ c2) m (b2 ++ map WLit ls)
  | cg_include m b c p body c1 m1 b1 c2 : flushed m b c -> cg_list (ch_with_parent m) [] body c1 m1 b1 -> flushed m1 b1 c2 ->
      cg_node m b (TInclude body) (c ++ [SIncludeBytes p] ++ c1 ++ c2) m []
  | cg_macro m b c l body m1 names values c1 m2 b2 c2 m3 : flushed (ch_push m) b c -> bind_pairs (ch_push m) l = Ok (m1, names, values) ->
      cg_list m1 [] body c1 m2 b2 -> flushed m2 b2 c2 -> ch_pop m2 = Ok m3 ->
      cg_node m b (TMacro l body) (c ++ [SBlock (bind_code names values ++ c1 ++ c2)]) m3 []
  | cg_filter m b name args body c m1 b1 var named z parts named' s r wr m2 :
      fresh_filter_name (chain_size m) m O = GOk var -> cg_list m [] body c m1 b1 ->
      prepare_format inp m1 b1 named = Ok (z, parts, named') ->
      match parts with NoParts => False | LitParts t => s = SLetStr var t | FmtParts f a => s = SLetFmt var f a end ->
      visit_expr inp m1 (insert_in_filter var (Filter name args)) = Ok (r, wr) -> ch_insert m1 var m_initialized = Ok m2 ->
      cg_node m b (TFilter name args body) (c ++ [s]) m2 (b ++ [WGen r wr])
  | cg_break m b c : flushed m b c -> cg_node m b TBreak (c ++ [SBreak]) m []
  | cg_continue m b c : flushed m b c -> cg_node m b TContinue (c ++ [SContinue]) m []
  with cg_branches : chain -> list (option cond_test * list tnode) -> list (rtest * list stmt) -> chain -> Prop :=
  | cb_nil m : cg_branches m [] [] m
  | cb_cons m t rt m1 body c1 m2 b2 c2 m3 bs rbs m4 : test_code (ch_push m) t rt m1 -> cg_list m1 [] body c1 m2 b2 ->
      flushed m2 b2 c2 -> ch_pop m2 = Ok m3 -> cg_branches m3 bs rbs m4 -> cg_branches m ((t, body) :: bs) ((rt, c1 ++ c2) :: rbs) m4
  with cg_arms : chain -> list (target * list tnode) -> list (target * list stmt) -> chain -> Prop :=
  | ca_nil m : cg_arms m [] [] m
  | ca_cons m t p m1 body c1 m2 b2 c2 m3 arms rarms m4 : visit_target (ch_push m) true t = Ok (p, m1) -> cg_list m1 [] body c1 m2 b2 ->
      flushed m2 b2 c2 -> ch_pop m2 = Ok m3 -> cg_arms m3 arms rarms m4 -> cg_arms m ((t, body) :: arms) ((p, c1 ++ c2) :: rarms) m4.

  Lemma cg_texts ls : forall m b ts c m' b', cg_list m (b ++ map WLit ls) ts c m' b' -> cg_list m b (texts ls ++ ts) c m' b'.
  Proof.
    induction ls as [|s ls IH]; intros m b ts c m' b' H; [cbn in *; rewrite app_nil_r in H; exact H|].
    cbn [texts map app] in *. change c with ([] ++ c). eapply cg_cons; [apply cg_text|]. apply IH. rewrite <- app_assoc. exact H.
  Qed.
  Lemma cg_app m b ts c m1 b1 ts' c' m2 b2 : cg_list m b ts c m1 b1 -> cg_list m1 b1 ts' c' m2 b2 -> cg_list m b (ts ++ ts') (c ++ c') m2 b2.
  Proof.
    revert m b c. induction ts as [|t ts IH]; intros m b c H1 H2; inversion H1; subst; [exact H2|].
    cbn [app]. rewrite <- app_assoc. eapply cg_cons; [eassumption|]. eapply IH; eassumption.
  Qed.
  Lemma cg_one m b t c m' b' : cg_node m b t c m' b' -> cg_list m b [t] c m' b'.
  Proof. intros H. rewrite <- (app_nil_r c). eapply cg_cons; [exact H|apply cg_nil]. Qed.
  Lemma cg_texts_one ls m b t c m' b' : cg_node m (b ++ map WLit ls) t c m' b' -> cg_list m b (texts ls ++ [t]) c m' b'.
  Proof. intros H. apply cg_texts. apply cg_one. exact H. Qed.
  Lemma cg_only_texts ls m b : cg_list m b (texts ls) [] m (b ++ map WLit ls).
  Proof. rewrite <- (app_nil_r (texts ls)). apply cg_texts. apply cg_nil. Qed.
  Lemma flushed_nil m : flushed m [] [].
  Proof. exists O, 0, NoParts, O. split; reflexivity. Qed.

  (** ** Arguments *)
  Lemma named_arg_skip p pre y suf : is_named y = false -> named_arg p (pre ++ y :: suf) = named_arg p suf.
  Proof.
    intros Hy. induction pre as [|a pre IH]; cbn [app].
    - destruct y; try reflexivity. discriminate Hy.
    - assert (F : forallb is_named (pre ++ y :: suf) = false).
      { rewrite forallb_app. cbn [forallb]. rewrite Hy. destruct (forallb is_named pre); reflexivity. }
      destruct a; cbn [named_arg]; try exact IH. rewrite F, andb_false_r. exact IH.
  Qed.
  Lemma named_arguments_ok def p rl : forall suf acc named, forallb is_named suf = true -> get p acc = named_arg p suf ->
    named_arguments def rl acc = Ok named -> get p named = named_arg p (rev rl ++ suf).
  Proof.
    induction rl as [|y rl IH]; intros suf acc named Hs Ha E; [injection E as <-; exact Ha|].
    cbn [rev]. rewrite <- app_assoc. cbn [app].
    destruct y; cbn [named_arguments] in E;
      try (injection E as <-; rewrite Ha; symmetry; apply named_arg_skip; reflexivity).
    destruct (mem_str name def); [|discriminate E]. eapply IH; [| |exact E].
    - cbn [forallb is_named]. exact Hs.
    - cbn [named_arg]. rewrite Hs, andb_true_r. destruct (str_eqb name p) eqn:Ex.
      + apply str_eqb_eq in Ex. subst. apply get_put_same.
      + apply str_eqb_neq in Ex. rewrite get_put_other by congruence. exact Ha.
  Qed.
  Lemma bind_args_pairs named args params : (forall p, get p named = named_arg p args) ->
    forall i positional m res, bind_args inp named args params i positional m = Ok res ->
    exists l, pair_args i params args = Some l /\ bind_pairs m l = Ok res.
  Proof.
    intros Hn. induction params as [|p params IH]; intros i positional m res E; cbn [bind_args] in E.
    - injection E as <-. exists []. split; reflexivity.
    - apply rbind_Ok in E as ([e pos] & Ee & E). cbv beta iota in E.
      assert (He : (match named_arg p args with Some e => Some e | None => nth_error args i end) = Some e).
      { rewrite <- Hn. destruct (get p named) as [e'|]; [injection Ee as <- <-; reflexivity|].
        destruct positional; [|discriminate Ee]. destruct (nth_error args i); [|discriminate Ee]. injection Ee as <- <-. reflexivity. }
      cbn [pair_args]. rewrite He. cbn [obind].
      assert (V : (let! r := visit_expr_root inp m e in let! m' := ch_insert m p m_default in
                   let! (m'', names, values) := bind_args inp named args params (S i) pos m' in Ok (m'', p :: names, r :: values)) = Ok res ->
        exists l, (let? r := pair_args (S i) params args in Some ((p, e) :: r)) = Some l /\
                  match l with [] => False | (_, _) :: l' =>
                    (let! r := visit_expr_root inp m e in let! m' := ch_insert m p m_default in
                     let! (m'', names, values) := bind_pairs m' l' in Ok (m'', p :: names, r :: values)) = Ok res /\ l = (p, e) :: l' end).
      { clear E. intros E. apply rbind_Ok in E as (r & E1 & E). apply rbind_Ok in E as (m' & E2 & E). apply rbind_Ok in E as ([[m'' ns] vs] & E3 & E).
        destruct (IH _ _ _ _ E3) as (l & L1 & L2). rewrite L1. eexists. split; [reflexivity|]. cbn. rewrite E1. cbn [rbind]. rewrite E2. cbn [rbind]. rewrite L2. cbn [rbind].
        split; [exact E|reflexivity]. }
      destruct e; try (destruct (V E) as (ll & L1 & L2); destruct ll as [|[? ?] ll]; [destruct L2|]; destruct L2 as [L2 L3]; injection L3 as -> ->;
                       eexists; split; [exact L1|exact L2]).
      + destruct (str_eqb s (lit "self")) eqn:Es.
        * destruct (V E) as (ll & L1 & L2). destruct ll as [|[? ?] ll]; [destruct L2|]. destruct L2 as [L2 L3]. injection L3 as -> ->.
          eexists. split; [exact L1|]. cbn [bind_pairs]. rewrite Es. exact L2.
        * apply rbind_Ok in E as (m' & E2 & E). destruct (IH _ _ _ _ E) as (ll & L1 & L2). rewrite L1. eexists. split; [reflexivity|].
          cbn [bind_pairs]. rewrite Es, E2. exact L2.
      + apply rbind_Ok in E as ([r wr] & E1 & E). cbv beta iota zeta in E. apply rbind_Ok in E as (m' & E2 & E).
        destruct (IH _ _ _ _ E) as (ll & L1 & L2). rewrite L1. eexists. split; [reflexivity|]. cbn [bind_pairs]. rewrite E1. cbn [rbind]. cbv zeta. rewrite E2. exact L2.
  Qed.
End Steps.

(** ** What is left out: an if without branches (the parser makes none) and a filter block around nothing, or around something
    that is not output (for which the generated code is wrong, see Prop_Gen.v).  [scoped] excludes them. *)
Fixpoint junk (n : tnode) : bool :=
  let many := fix many (l : list tnode) : bool := match l with [] => false | n :: l' => junk n || many l' end in
  match n with
  | TText _ | TExpr _ | TLet _ _ | TBreak | TContinue => false
  | TIf bs => Nat.eqb (length bs) 0 || (fix f (l : list (option cond_test * list tnode)) := match l with [] => false | (_, b) :: l' => many b || f l' end) bs
  | TMatch _ bs => (fix f (l : list (target * list tnode)) := match l with [] => false | (_, b) :: l' => many b || f l' end) bs
  | TFor _ _ _ a b c => many a || many b || many c
  | TBlock b | TInclude b | TMacro _ b => many b
  | TFilter _ _ b => Nat.eqb (length b) 0 || negb (forallb only_output b) || many b
  end.
Fixpoint junks (l : list tnode) : bool := match l with [] => false | n :: l' => junk n || junks l' end.
Definition junks_in {A} : list (A * list tnode) -> bool :=
  fix go (l : list (A * list tnode)) : bool := match l with [] => false | (_, b) :: l' => junks b || go l' end.
Lemma junk_if bs : junk (TIf bs) = Nat.eqb (length bs) 0 || junks_in bs.
Proof. reflexivity. Qed.
Lemma junk_match e bs : junk (TMatch e bs) = junks_in bs.
Proof. reflexivity. Qed.
Lemma junk_for t it c x y z : junk (TFor t it c x y z) = junks x || junks y || junks z.
Proof. reflexivity. Qed.
Lemma junk_block b : junk (TBlock b) = junks b.
Proof. reflexivity. Qed.
Lemma junk_include b : junk (TInclude b) = junks b.
Proof. reflexivity. Qed.
Lemma junk_macro l b : junk (TMacro l b) = junks b.
Proof. reflexivity. Qed.
Lemma junk_filter x l b : junk (TFilter x l b) = Nat.eqb (length b) 0 || negb (forallb only_output b) || junks b.
Proof. reflexivity. Qed.
Lemma junks_app a b : junks (a ++ b) = junks a || junks b.
Proof. induction a; cbn [junks app]; [reflexivity|]. rewrite IHa. apply orb_assoc. Qed.
