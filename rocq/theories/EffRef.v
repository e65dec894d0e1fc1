(** * What a template is to do when calls have effects, without the generator.
    As [teval] and [mean] in RefSem.v, with effects in place of pure values: every expression of the template is evaluated
    where it stands, from left to right, when control gets there.  No scopes of the generator, no generated code.
    [Unset]: nothing is said. *)
From Verif Require Import Base Ws Ast Ident GenExpr Heritage Gen Sem RefSem Effect EffSem Shipped.
Local Open Scope N_scope.

Section EffRef.
  Variables (w : world) (T : Type) (x : effects w T) (inp : ginput).
  Notation V := (V w).
  Notation env := (env w).
  Notation eff := (eff T).
  Notation act := (act T).
  Notation bnd := (bnd T).
  Notation ret := (ret T).
  Notation opt := (opt T).
  Notation none := (pure T Unset).

  (** ** Expressions: as [teval].  Calls, Rust macros, [?] and the filters of the user have effects. *)
  Section Eval.
    Variable en : env.
    Variable lp : lpos.
    Fixpoint xteval (e : expr) : eff V :=
      let args := eff_map T xteval in
      let maybe o := match o with Some e => bnd (xteval e) (fun v => ret (Some v)) | None => ret None end in
      match e with
      | BoolLit s | NumLit s => ret (w_tok w s)
      | StrLit s => ret (w_str w s)
      | CharLit s => ret (w_char w s)
      | Var y => if str_eqb y (lit "self") then ret (w_self w) else pure T (var_value w en [] y)
      | Path l => ret (w_path w l)
      | Arr l => bnd (args l) (fun vs => ret (w_arr w vs))
      | Tuple l => bnd (args l) (fun vs => ret (w_tup w vs))
      | Attr o y => if is_loop o then pure T (loop_value w lp y) else bnd (xteval o) (fun v => ret (w_field w v y))
      | Index a b => bnd (xteval a) (fun v => bnd (xteval b) (fun k => opt (w_index w v k)))
      | NamedArgument _ e | Group e => xteval e
      | Unary op e => bnd (xteval e) (fun v => opt (w_un w op v))
      | BinOp op l r => eff_bin w T op (xteval l) (xteval r)
      | Range op l r => bnd (maybe l) (fun a => bnd (maybe r) (fun b => opt (w_range w op a b)))
      | Call (Var y) l => bnd (pure T (var_value w en [] y)) (fun v => bnd (args l) (fun vs => of_act T (x_call w T x v vs)))
      | Call (Attr o y) l =>
          if is_loop o then
            match l, lp with
            | [a], Some (i, _, _) =>
                if str_eqb y (lit "cycle") then
                  bnd (xteval a) (fun v => bnd (opt (w_elems w v)) (fun vs =>
                  match vs with [] => pure T Fails | _ => opt (nth_error vs (N.to_nat (i mod N.of_nat (length vs)))) end))
                else none
            | _, _ => none
            end
          else bnd (xteval o) (fun v => bnd (args l) (fun vs => of_act T (x_method w T x v y vs)))
      | Call f l => bnd (xteval f) (fun v => bnd (args l) (fun vs => of_act T (x_call w T x v vs)))
      | RustMacro p s => of_act T (x_macro w T x p s)
      | Try e => bnd (xteval e) (fun v => of_act T (x_try w T x v))
      | Generated _ => none
      | Filter name l =>
          if str_eqb name (lit "as_ref") || str_eqb name (lit "deref") then
            match l with [a] => xteval a | _ => none end
          else if str_eqb name (lit "escape") || str_eqb name (lit "e") then
            match l with
            | [a] => bnd (xteval a) (fun v => ret (w_unsafe w (f_escaper inp) v))
            | [a; StrLit y] => match escaper_for (f_escapers inp) y with
                               | Some esc => bnd (xteval a) (fun v => ret (w_unsafe w esc v))
                               | None => none
                               end
            | _ => none
            end
          else if str_eqb name (lit "fmt") then
            match l with [a; StrLit f] => bnd (xteval a) (fun v => opt (w_format w f [v])) | _ => none end
          else if str_eqb name (lit "format") then
            match l with StrLit f :: l => bnd (args l) (fun vs => opt (w_format w f vs)) | _ => none end
          else if str_eqb name (lit "join") then bnd (args l) (fun vs => opt (w_join w vs))
          else if str_eqb name (lit "json") || str_eqb name (lit "tojson") then
            match l with [a] => bnd (xteval a) (fun v => opt (w_filter w true (lit "json") [v])) | _ => none end
          else if str_eqb name (lit "safe") then
            match l with [a] => bnd (xteval a) (fun v => ret (w_safe w v)) | _ => none end
          else if mem_str name shipped then bnd (args l) (fun vs => opt (w_filter w true name vs))
          else bnd (args l) (fun vs => of_act T (x_filter w T x name vs))
      end.
    Definition xholds (e : expr) : eff bool := bnd (xteval e) (fun v => opt (w_truth w v)).
  End Eval.

  (** ** Nodes.  [en]: the variables of the template, [k]: what comes next.  As [ref_test], [ref_keep], [mean]. *)
  Definition rtest (en : env) (lp : lpos) (t : option cond_test) : eff (option env) :=
    match t with
    | None => ret (Some en)
    | Some c =>
        match ct_target c with
        | None => bnd (xholds en lp (ct_expr c)) (fun b : bool => ret (if b then Some en else None))
        | Some p =>
            let simple e := bnd (xteval en lp e) (fun v => ret (match pmatch w p v with Some bs => Some (bind_vals w bs en) | None => None end)) in
            match ct_expr c with
            | BinOp op l r =>
                if str_eqb op (lit "&&") then
                  bnd (xteval en lp l) (fun v =>
                  match pmatch w p v with
                  | None => ret None
                  | Some bs => bnd (xholds (bind_vals w bs en) lp r) (fun b : bool => ret (if b then Some (bind_vals w bs en) else None))
                  end)
                else if str_eqb op (lit "||") then none
                else simple (BinOp op l r)
            | e => simple e
            end
        end
    end.
  Definition rkeep (en : env) (lp : lpos) (p : target) (cnd : option expr) (v : V) : eff bool :=
    match cnd with
    | None => ret true
    | Some c => bnd (opt (pmatch w p v)) (fun bs => xholds (bind_vals w bs en) lp c)
    end.
  Definition rlist (f : tnode -> env -> (env -> act) -> act) : list tnode -> env -> (env -> act) -> act :=
    fix go (l : list tnode) (en : env) (k : env -> act) : act :=
      match l with [] => k en | n :: l' => f n en (fun en' => go l' en' k) end.
  Definition rblock (f : tnode -> env -> (env -> act) -> act) (l : list tnode) (en : env) : act := rlist f l en (fun _ => stop T).
  Definition rbranches (f : tnode -> env -> (env -> act) -> act) (en : env) (lp : lpos) : list (option cond_test * list tnode) -> act :=
    fix go (l : list (option cond_test * list tnode)) : act :=
      match l with
      | [] => stop T
      | (t, body) :: l' => bnd (rtest en lp t) (fun o => match o with Some en' => rblock f body en' | None => go l' end)
      end.
  Definition rarms (f : tnode -> env -> (env -> act) -> act) (en : env) (v : V) : list (target * list tnode) -> act :=
    fix go (l : list (target * list tnode)) : act :=
      match l with
      | [] => pure T Fails
      | (p, body) :: l' => match pmatch w p v with Some bs => rblock f body (bind_vals w bs en) | None => go l' end
      end.
  (** The condition of a loop is evaluated for the next item before the body for this one: EffSem.v, [xloop]. *)
  Fixpoint rmean (lp : lpos) (n : tnode) (en : env) (k : env -> act) {struct n} : act :=
    match n with
    | TText s => write T (ret s) (k en)
    | TExpr e => write T (bnd (xteval en lp e) (fun v => opt (RefSem.shown w inp e v))) (k en)
    | TLet t (Some e) => bnd (xteval en lp e) (fun v => bnd (opt (pmatch w t v)) (fun bs => k (bind_vals w bs en)))
    | TIf bs => seq T (rbranches (rmean lp) en lp bs) (k en)
    | TMatch e arms => bnd (xteval en lp e) (fun v => seq T (rarms (rmean lp) en v arms) (k en))
    | TFor p it cnd body els tail =>
        bnd (xteval en lp it) (fun v => bnd (opt (w_iter w v)) (fun items =>
        bnd (xloop w T (rkeep en lp p cnd) (fun i first last v => bnd (opt (pmatch w p v)) (fun bs =>
                     rblock (rmean (Some (i, first, last))) body (bind_vals w bs en))) items) (fun r =>
        write T (ret (fst r)) (seq T (if snd r then stop T else rblock (rmean lp) els en) (seq T (rblock (rmean lp) tail en) (k en))))))
    | TBlock b => seq T (rblock (rmean lp) b []) (k en)
    | TInclude b => seq T (rblock (rmean lp) b en) (k en)
    | TMacro l b =>
        bnd (eff_map T (fun a => xteval en lp (snd a)) l) (fun vs => seq T (rblock (rmean lp) b (bind_vals w (combine (map fst l) vs) en)) (k en))
    | TBreak => ret ([], Break)
    | TContinue => ret ([], Continue)
    | TLet _ None | TFilter _ _ _ => none                   (* declared variables and filter blocks are left out *)
    end.
  Definition rrender (ts : list tnode) : eff str :=
    bnd (rblock (rmean None) ts []) (fun r => match snd r with Next => ret (fst r) | _ => pure T Fails end).
End EffRef.
