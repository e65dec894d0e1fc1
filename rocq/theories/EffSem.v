(** * Whole templates with effects.
    [xstmt]: what generated statements do when calls have effects; like Sem.v and Effect.v this is about Rust.  [tmean]: what a
    template put together (RefSem.v) is to do: every expression is evaluated where it stands, as the code for it alone
    says.  Running on is by continuation, so that variables are visible exactly where they should be. *)
From Verif Require Import Base Ws Ast Ident GenExpr Heritage Gen Sem RefSem SimFacts GenSteps Effect.
Local Open Scope N_scope.

Section EffSem.
  Variables (w : world) (T : Type) (x : effects w T).
  Notation V := (V w).
  Notation env := (env w).
  Notation ev en := (xeval w T x en []).
  Notation eff := (eff T).
  (** What is written and how control leaves *)
  Definition act := eff (str * flow).
  Definition bnd {A B} (c : eff A) (k : A -> eff B) : eff B := ebnd T c k.
  Definition ret {A} (a : A) : eff A := pure T (Done a).
  Definition opt {A} (o : option A) : eff A := pure T (of_opt o).
  Definition stop : act := ret ([], Next).
  Definition write (c : eff str) (k : act) : act := bnd c (fun s => bnd k (fun r => ret (s ++ fst r, snd r))).
  (** One after the other, unless the first jumps *)
  Definition seq (a k : act) : act := bnd a (fun r => match snd r with Next => bnd k (fun r' => ret (fst r ++ fst r', snd r')) | _ => ret r end).

  Definition xtruth (en : env) (e : rexpr) : eff bool := bnd (ev en e) (fun v => opt (w_truth w v)).
  Fixpoint xall_true (en : env) (l : list rexpr) : eff bool :=
    match l with [] => ret true | e :: l' => bnd (xtruth en e) (fun b : bool => if b then xall_true en l' else ret false) end.
  (** As [test_true] *)
  Definition xtest (t : rtest) (en : env) : eff (option env) :=
    match t with
    | RIf e => bnd (xtruth en e) (fun b : bool => ret (if b then Some en else None))
    | RIfLet p e => bnd (ev en e) (fun v => ret (match pmatch w p v with Some bs => Some (bind_vals w bs en) | None => None end))
    | RIfLetChain p op l r =>
        match (if str_eqb op (lit "&&") then let_chain l else None) with
        | Some (h, rest) =>
            bnd (ev en h) (fun v =>
            match pmatch w p v with
            | None => ret None
            | Some bs => bnd (xall_true (bind_vals w bs en) (rest ++ [r])) (fun b : bool => ret (if b then Some (bind_vals w bs en) else None))
            end)
        | None => pure T Fails
        end
    | RElse => ret (Some en)
    end.
  (** As [keep_item] *)
  Definition xkeep (en : env) (flt : option (target * rexpr)) (v : V) : eff bool :=
    match flt with
    | None => ret true
    | Some (p, c) => bnd (opt (pmatch w p v)) (fun bs => xtruth (bind_vals w bs en) c)
    end.
  (** [for (p, _loop_item) in TemplateLoop::new(_iter.filter(..))], askama/src/helpers.rs:5-39: before the body runs for an item,
      the next one to be kept is looked for, since [last] must be known.  The text and whether there was a round. *)
  Section Loop.
    Variables (keep : V -> eff bool) (body : N -> bool -> bool -> V -> act).
    Fixpoint xrounds (l : list V) (i : N) (cur : V) : eff str :=
      match l with
      | [] => bnd (body i (i =? 0) true cur) (fun r => ret (fst r))
      | v :: l' =>
          bnd (keep v) (fun b : bool =>
            if b then bnd (body i (i =? 0) false cur) (fun r =>
                        match snd r with Break => ret (fst r) | _ => bnd (xrounds l' (i + 1) v) (fun s => ret (fst r ++ s)) end)
            else xrounds l' i cur)
      end.
    Fixpoint xloop (l : list V) : eff (str * bool) :=
      match l with
      | [] => ret ([], false)
      | v :: l' => bnd (keep v) (fun b : bool => if b then bnd (xrounds l' 0 v) (fun s => ret (s, true)) else xloop l')
      end.
  End Loop.

  (** ** Statements.  [k] is what comes next in the same block.  Assignment to a declared variable is left out: [Unset]. *)
  Definition xlist (f : stmt -> env -> (env -> act) -> act) : list stmt -> env -> (env -> act) -> act :=
    fix go (l : list stmt) (en : env) (k : env -> act) : act :=
      match l with [] => k en | s :: l' => f s en (fun en' => go l' en' k) end.
  Definition xblock (f : stmt -> env -> (env -> act) -> act) (l : list stmt) (en : env) : act := xlist f l en (fun _ => stop).
  Definition xbranches (f : stmt -> env -> (env -> act) -> act) (en : env) : list (rtest * list stmt) -> act :=
    fix go (l : list (rtest * list stmt)) : act :=
      match l with
      | [] => stop
      | (t, body) :: l' => bnd (xtest t en) (fun o => match o with Some en' => xblock f body en' | None => go l' end)
      end.
  Definition xarms (f : stmt -> env -> (env -> act) -> act) (en : env) (v : V) : list (target * list stmt) -> act :=
    fix go (l : list (target * list stmt)) : act :=
      match l with
      | [] => pure T Fails
      | (p, body) :: l' => match pmatch w p v with Some bs => xblock f body (bind_vals w bs en) | None => go l' end
      end.
  Fixpoint xstmt (s : stmt) (en : env) (k : env -> act) {struct s} : act :=
    match s with
    | SWriteStr t => write (ret t) (k en)
    | SWriteFmt fmt args => write (xformat w T x en [] fmt args) (k en)
    | SLet p e => bnd (ev en e) (fun v => bnd (opt (pmatch w p v)) (fun bs => k (bind_vals w bs en)))
    | SLetTuple xs es => bnd (eff_map T (ev en) es) (fun vs => k (bind_vals w (combine xs vs) en))
    | SLetStr y s => k ((y, Val w (w_text w s)) :: en)
    | SLetFmt y fmt args => bnd (xformat w T x en [] fmt args) (fun s => k ((y, Val w (w_text w s)) :: en))
    | SIf bs => seq (xbranches xstmt en bs) (k en)
    | SMatch e arms => bnd (ev en e) (fun v => seq (xarms xstmt en v arms) (k en))
    | SLoop has_else it _ flt p body els tail =>
        bnd (ev en it) (fun v => bnd (opt (w_iter w v)) (fun items =>
        bnd (xloop (xkeep en flt) (fun i first last v => bnd (opt (pmatch w p v)) (fun bs =>
                     xblock xstmt body ((lit "_loop_item", Val w (w_item w i first last)) :: bind_vals w bs en))) items) (fun r =>
        write (ret (fst r)) (seq (if has_else && negb (snd r) then xblock xstmt els en else stop) (seq (xblock xstmt tail en) (k en))))))
    | SBlock b => seq (xblock xstmt b en) (k en)
    | SBreak => ret ([], Break)
    | SContinue => ret ([], Continue)
    | SIncludeBytes _ => k en
    | SDeclare _ | SAssign _ _ => pure T Unset
    end.
  Definition xrun (code : list stmt) : eff str :=
    bnd (xblock xstmt code []) (fun r => match snd r with Next => ret (fst r) | _ => pure T Fails end).

  (** ** Templates.  The scopes [m] say what the names of the template stand for; the variables of [en] are the Rust ones. *)
  Variable inp : ginput.
  Definition code_or {A B} (r : res A) (k : A -> eff B) : eff B := match r with Ok a => k a | _ => pure T Unset end.
  Definition xshow (m : chain) (en : env) (e : expr) : eff str :=
    code_or (visit_expr inp m e) (fun r : rexpr * bool => let (r, wr) := r in
      bnd (ev en (if wr then r else RMarkup (f_escaper inp) r)) (fun v => opt (w_display w v))).
  (** The condition of a branch, [m] is the scope of the branch *)
  Definition visit_test (m : chain) (t : option cond_test) : res (rtest * chain) :=
    match t with
    | None => Ok (RElse, m)
    | Some c =>
        match ct_target c with
        | None => let! e' := visit_expr_root inp m (ct_expr c) in Ok (RIf e', m)
        | Some p =>
            let simple e := let! e' := visit_expr_root inp m e in let! (p', m') := visit_target m true p in Ok (RIfLet p' e', m') in
            match ct_expr c with
            | BinOp op l r =>
                if str_eqb op (lit "||") || str_eqb op (lit "&&") then
                  let! l' := visit_expr_root inp m l in let! (p', m') := visit_target m true p in
                  let! r' := visit_expr_root inp m' r in Ok (RIfLetChain p' op l' r', m')
                else simple (BinOp op l r)
            | e => simple e
            end
        end
    end.
  Definition visit_filter (m : chain) (t : target) (cnd : option expr) : res (option (target * rexpr)) :=
    match cnd with
    | None => Ok None
    | Some e => let! (p, m') := visit_target m true t in let! e' := visit_expr_root inp m' e in Ok (Some (p, e'))
    end.
  (** A variable that has a place but no value, which the next let of that name gives it.  (Also a parameter of a macro.) *)
  Definition waiting (m : chain) (t : target) : bool :=
    match t with
    | TName y => match ch_get m y with
                 | Some _ => match ch_get m (normalize_identifier y) with Some meta => negb (l_init meta) | None => true end
                 | None => false
                 end
    | _ => false
    end.
  Definition tlist (f : tnode -> chain -> env -> (chain -> env -> act) -> act) : list tnode -> chain -> env -> (chain -> env -> act) -> act :=
    fix go (l : list tnode) (m : chain) (en : env) (k : chain -> env -> act) : act :=
      match l with [] => k m en | n :: l' => f n m en (fun m' en' => go l' m' en' k) end.
  Definition tblock (f : tnode -> chain -> env -> (chain -> env -> act) -> act) (l : list tnode) (m : chain) (en : env) : act :=
    tlist f l m en (fun _ _ => stop).
  Definition tbranches (f : tnode -> chain -> env -> (chain -> env -> act) -> act) (m : chain) (en : env) :
    list (option cond_test * list tnode) -> act :=
    fix go (l : list (option cond_test * list tnode)) : act :=
      match l with
      | [] => stop
      | (t, body) :: l' => code_or (visit_test (ch_push m) t) (fun r : rtest * chain => let (rt, m') := r in
          bnd (xtest rt en) (fun o => match o with Some en' => tblock f body m' en' | None => go l' end))
      end.
  Definition tarms (f : tnode -> chain -> env -> (chain -> env -> act) -> act) (m : chain) (en : env) (v : V) : list (target * list tnode) -> act :=
    fix go (l : list (target * list tnode)) : act :=
      match l with
      | [] => pure T Fails
      | (t, body) :: l' => code_or (visit_target (ch_push m) true t) (fun r : target * chain => let (p, m') := r in
          match pmatch w p v with Some bs => tblock f body m' (bind_vals w bs en) | None => go l' end)
      end.
  Fixpoint tmean (n : tnode) (m : chain) (en : env) (k : chain -> env -> act) {struct n} : act :=
    match n with
    | TText s => write (ret s) (k m en)
    | TExpr e => write (xshow m en e) (k m en)
    | TLet t (Some e) =>
        code_or (visit_expr_root inp m e) (fun r => code_or (visit_target m true t) (fun pm : target * chain => let (p, m') := pm in
        if waiting m t then pure T Unset
        else bnd (ev en r) (fun v => bnd (opt (pmatch w p v)) (fun bs => k m' (bind_vals w bs en)))))
    | TIf bs => seq (tbranches tmean m en bs) (k m en)
    | TMatch e arms => code_or (visit_expr_root inp m e) (fun r => bnd (ev en r) (fun v => seq (tarms tmean m en v arms) (k m en)))
    | TFor t it cnd body els tail =>
        code_or (visit_expr_root inp (ch_push m) it) (fun r => code_or (visit_filter (ch_push (ch_push m)) t cnd) (fun flt =>
        code_or (visit_target (ch_push (ch_push m)) true t) (fun pm : target * chain => let (p, m') := pm in
        bnd (ev en r) (fun v => bnd (opt (w_iter w v)) (fun items =>
        bnd (xloop (xkeep en flt) (fun i first last v => bnd (opt (pmatch w p v)) (fun bs =>
                     tblock tmean body m' ((lit "_loop_item", Val w (w_item w i first last)) :: bind_vals w bs en))) items) (fun r =>
        write (ret (fst r)) (seq (if snd r then stop else tblock tmean els (ch_push (ch_push m)) en) (seq (tblock tmean tail (ch_push m) en) (k m en)))))))))
    | TBlock b => seq (tblock tmean b ch_empty en) (k m en)
    | TInclude b => seq (tblock tmean b (ch_with_parent m) en) (k m en)
    | TMacro l b =>
        code_or (bind_pairs inp (ch_push m) l) (fun r : chain * list str * list rexpr => let '(m1, names, values) := r in
        bnd (eff_map T (ev en) values) (fun vs => seq (tblock tmean b m1 (bind_vals w (combine names vs) en)) (k m en)))
    | TBreak => ret ([], Break)
    | TContinue => ret ([], Continue)
    | TLet _ None | TFilter _ _ _ => pure T Unset
    end.
  Definition xrender (ts : list tnode) : eff str :=
    bnd (tblock tmean ts ch_empty []) (fun r => match snd r with Next => ret (fst r) | _ => pure T Fails end).

  (** [b] does what [a] does, unless [a] fails: then [b] does not succeed either. *)
  Definition done {A} (o : out A) : bool := match o with Done _ => true | _ => false end.
  Definition refines {A} (a b : eff A) : Prop :=
    forall t, match a t with (Done r, t') => b t = (Done r, t') | _ => done (fst (b t)) = false end.
End EffSem.

(** ** Templates in which nothing overtakes an expression *)
(** Filters of the user are taken for call-free (C42_custom_filter_refuted) *)
Definition counted (e : expr) : bool := negb (has_user_filter e) || has_call e.
(** An argument that is an attribute is evaluated at each use of the parameter (C56_argument_again_refuted). *)
Definition once (e : expr) : bool := match e with Attr _ _ => negb (has_call e) && negb (has_user_filter e) | _ => true end.
(** No variable is set at the top of it. *)
Fixpoint lets_nothing (n : tnode) : bool :=
  match n with TLet _ _ | TFilter _ _ _ => false | TBlock b | TInclude b => forallb lets_nothing b | _ => true end.
(** [late]: expressions are still to be written; a let would be executed before them (C56_let_first_refuted).  [bare]: no
    variable is in scope; elsewhere the expressions at the end of a block are not looked up like the others (C31).  None: out of
    scope.  Else the same after the node. *)
Definition ordered_list (f : bool -> bool -> tnode -> option (bool * bool)) : bool -> bool -> list tnode -> option (bool * bool) :=
  fix go (late bare : bool) (l : list tnode) : option (bool * bool) :=
    match l with [] => Some (late, bare) | n :: l' => let? (late', bare') := f late bare n in go late' bare' l' end.
Definition fresh_list (f : bool -> bool -> tnode -> option (bool * bool)) (bare : bool) (l : list tnode) : bool :=
  match ordered_list f false bare l with Some _ => true | None => false end.
Fixpoint ordered (late bare : bool) (n : tnode) {struct n} : option (bool * bool) :=
  match n with
  | TText _ => Some (late, bare)
  | TExpr e => if counted e then Some (true, bare) else None
  | TLet _ (Some _) => if late then None else Some (false, false)
  | TIf bs =>
      if forallb (fun b : option cond_test * list tnode => match b with (t, l) =>
           fresh_list ordered (bare && match t with Some c => match ct_target c with None => true | _ => false end | None => true end) l end) bs
         && match bs with [] => false | _ => true end
      then Some (false, bare) else None
  | TMatch _ arms => if forallb (fun a : target * list tnode => match a with (_, l) => fresh_list ordered false l end) arms then Some (false, bare) else None
  | TFor _ _ _ body els tail => if fresh_list ordered false body && fresh_list ordered bare els && fresh_list ordered bare tail then Some (false, bare) else None
  | TBlock b => if bare && forallb lets_nothing b then let? (late', _) := ordered_list ordered false true b in Some (late', bare) else None
  | TInclude b => if forallb lets_nothing b && fresh_list ordered bare b then Some (false, bare) else None
  | TMacro l b => if forallb (fun p => once (snd p)) l && fresh_list ordered false b then Some (false, bare) else None
  | TBreak | TContinue => Some (false, bare)
  | TLet _ None | TFilter _ _ _ => None
  end.
Definition in_order (ts : list tnode) : bool := fresh_list ordered true ts.
