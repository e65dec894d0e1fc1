(** * What a template means, independently of the code generated for it.
    Two steps.  [elab] puts the pieces together: it resolves whitespace control into plain text, and replaces calls of
    macros, blocks, super() and includes by what they stand for.  [mean] says what the result renders to.  The meaning is the
    obvious one: everything happens in the order it is written, and nothing is known about buffering, scope maps, merged
    writes or the names used in generated code. *)
From Verif Require Import Base Ws Ast Ident GenExpr Heritage Gen Sem Shipped.
Local Open Scope N_scope.

(** ** Templates put together *)
Inductive tnode :=
| TText (s : str)
| TExpr (e : expr)
| TLet (var : target) (val : option expr)
| TIf (branches : list (option cond_test * list tnode))
| TMatch (e : expr) (arms : list (target * list tnode))
| TFor (var : target) (it : expr) (cnd : option expr) (body els tail : list tnode)
    (* [tail]: blanks between {% else %} and {% endfor %} when there is nothing else there *)
| TBlock (body : list tnode)                              (* a block or super(): sees no variables *)
| TInclude (body : list tnode)                            (* sees the variables, keeps its own *)
| TMacro (args : list (str * expr)) (body : list tnode)
| TFilter (name : str) (args : list expr) (body : list tnode)
| TBreak | TContinue.
Definition texts (ls : list str) : list tnode := map TText ls.

(** The escaper that the filter [escape] names: the first one that has the name among its extensions. *)
Fixpoint escaper_for (escapers : list (list str * str)) (x : str) : option str :=
  match escapers with
  | [] => None
  | (names, esc) :: l => if existsb (str_eqb x) names then Some esc else escaper_for l x
  end.
(** The variable of the surrounding loop *)
Definition is_loop (e : expr) : bool := match e with Var x => str_eqb x (lit "loop") | _ => false end.
(** The text in a filter block is the first argument of the filter that is applied first. *)
Fixpoint feed (e : expr) : expr :=
  match e with
  | Filter name ((Filter _ _) as inner :: l) => Filter name (feed inner :: l)
  | Filter name l => Filter name (Generated [] :: l)
  | e => e
  end.

(** The argument that goes with a parameter: the one with its name, else the one in its place.  Named arguments come last. *)
Definition is_named (e : expr) : bool := match e with NamedArgument _ _ => true | _ => false end.
Fixpoint named_arg (p : str) (args : list expr) : option expr :=
  match args with
  | [] => None
  | NamedArgument x e :: l => if str_eqb x p && forallb is_named l then Some (NamedArgument x e) else named_arg p l
  | _ :: l => named_arg p l
  end.
Fixpoint pair_args (i : nat) (params : list str) (args : list expr) : option (list (str * expr)) :=
  match params with
  | [] => Some []
  | p :: l => let? e := match named_arg p args with Some e => Some e | None => nth_error args i end in
              let? r := pair_args (S i) l args in Some ((p, e) :: r)
  end.

Section Elab.
  Variable inp : ginput.
  Variable contexts : list (str * context).
  Variable find : str -> str -> res str.
  Definition el := (list tnode * wstate)%type.
  (** Whitespace control is that of Ws.v (the subject of C26 and C27): [w_flush] is the text kept before a tag. *)
  Definition w_flush (l : option handling) (st : wstate) : list tnode * wstate :=
    let (out, st') := flush_ws (f_ws inp) l st in (texts out, st').
  Definition w_prepare (r : option handling) (st : wstate) : wstate := prepare_ws (f_ws inp) r st.
  Definition w_handle (x : ws) (st : wstate) : list tnode * wstate :=
    let (t, st') := w_flush (ws_l x) st in (t, w_prepare (ws_r x) st').
  Definition w_lit (l : literal) (st : wstate) : gres (list tnode * wstate) :=
    match visit_lit l st with None => GPanic | Some (out, st') => GOk (texts out, st') end.

  Section Nodes.
    Variable expand : option heritage -> context -> option (str * nat) -> list node -> bool -> wstate -> gres el.
    Variable her : option heritage.
    Variable ctx : context.
    Variable sup : option (str * nat).    (* the block being rendered and how far up the chain its definition is *)

    Definition elab_list (f : node -> wstate -> gres el) : list node -> wstate -> gres el :=
      fix go (l : list node) (st : wstate) : gres el :=
        match l with
        | [] => GOk ([], st)
        | n :: l' => let* (a, st) := f n st in let* (b, st) := go l' st in GOk (a ++ b, st)
        end.
    (** The blanks before a tag belong to what comes before the tag: the first component of the result goes there. *)
    Definition elab_branches (f : node -> wstate -> gres el) (w_end : ws) :
      list cond -> wstate -> gres (list tnode * list (option cond_test * list tnode) * wstate) :=
      fix go (cs : list cond) (st : wstate) :=
        match cs with
        | [] => let (t, st) := w_handle w_end st in GOk (t, [], st)
        | Cond x test nodes :: cs' =>
            let (t, st) := w_handle x st in
            let* (body, st) := elab_list f nodes st in
            let* (after, rest, st) := go cs' st in
            GOk (t, (test, body ++ after) :: rest, st)
        end.
    Definition elab_arms (f : node -> wstate -> gres el) (w_end : ws) :
      list when_ -> wstate -> gres (list tnode * list (target * list tnode) * wstate) :=
      fix go (arms : list when_) (st : wstate) :=
        match arms with
        | [] => let (t, st) := w_handle w_end st in GOk (t, [], st)
        | When x p nodes :: arms' =>
            let (t, st) := w_handle x st in
            let* (body, st) := elab_list f nodes st in
            let* (after, rest, st) := go arms' st in
            GOk (t, (p, body ++ after) :: rest, st)
        end.

    (** A block: the definition that is rendered and the context it comes from.  [name] is [None] for super(). *)
    Definition elab_block (name : option str) (outer : ws) (st : wstate) : gres el :=
      let (t, st) := w_flush (ws_l outer) st in
      let* cur := match name, sup with
                  | Some x, _ => GOk (x, O)
                  | None, Some (x, g) => GOk (x, S g)
                  | None, None => GErr (lit "super() outside of a block")
                  end in
      match her with
      | None => GErr (lit "no blocks")
      | Some h =>
          match get (fst cur) (h_blocks h) with
          | None => GErr (lit "no such block")
          | Some defs =>
              match nth_error defs (snd cur) with
              | None => GErr (lit "no such block")
              | Some (c, def) =>
                  let* (body, st') := expand her (merge_context ctx c) (Some cur) (b_nodes def) false
                                        (w_prepare (ws_r (b_ws1 def)) ws_init) in
                  let (t', _) := w_flush (ws_l (b_ws2 def)) st' in
                  GOk (t ++ [TBlock (body ++ t')], w_prepare (ws_r outer) st)
              end
          end
      end.
    Definition elab_call (x : ws) (scope : option str) (name : str) (args : list expr) (st : wstate) : gres el :=
      if str_eqb name (lit "super") then elab_block None x st
      else
        let* (def, own) :=
          match scope with
          | Some s => match get s (c_imports ctx) with
                      | None => GErr (lit "no such import")
                      | Some path => match get path contexts with
                                     | None => GErr (lit "no such import")
                                     | Some c => match get name (c_macros c) with None => GErr (lit "no such macro") | Some d => GOk (d, c) end
                                     end
                      end
          | None => match get name (c_macros ctx) with None => GErr (lit "no such macro") | Some d => GOk (d, ctx) end
          end in
        let (t, st) := w_flush (ws_l x) st in
        let* (body, st) := expand her own sup (k_nodes def) false (w_prepare (ws_r (k_ws1 def)) st) in
        let (t', st) := w_flush (ws_l (k_ws2 def)) st in
        match pair_args O (k_args def) args with
        | None => GErr (lit "missing argument")
        | Some l => GOk (t ++ [TMacro l (body ++ t')], w_prepare (ws_r x) st)
        end.
    Definition elab_include (x : ws) (path : str) (st : wstate) : gres el :=
      let (t, st) := w_flush (ws_l x) st in
      let* p := of_res (find path (f_path inp)) in
      match get p contexts with
      | None => GErr (lit "no such template")
      | Some c =>
          let c := merge_context ctx c in
          let* h := match c_blocks c, c_extends c with
                    | [], None => GOk None
                    | _, _ => let* h := heritage_new (S (length contexts)) contexts c in GOk (Some h)
                    end in
          let root := match h with Some h => h_root h | None => c end in
          let* (body, _) := expand h root None (c_nodes root) true ws_init in
          GOk (t ++ [TInclude body], w_prepare (ws_r x) st)
      end.
    Fixpoint elab_node (n : node) (st : wstate) : gres el :=
      match n with
      | NLit l => w_lit l st
      | NComment x _ | NImport x _ _ => GOk (w_handle x st)
      | NExpr x e => let (t, st) := w_handle x st in GOk (t ++ [TExpr e], st)
      | NLet x var val => let (t, st) := w_handle x st in GOk (t ++ [TLet var val], st)
      | NIf x cs => let* (t, bs, st) := elab_branches elab_node x cs st in GOk (t ++ [TIf bs], st)
      | NMatch w1 e arms w2 =>
          let (t, st) := w_flush (ws_l w1) st in
          let* (t', arms', st) := elab_arms elab_node w2 arms st in
          (* nothing is left between {% match %} and the first {% when %} *)
          GOk (t ++ [TMatch e (match arms' with [] => [] | (p, b) :: l => (p, t' ++ b) :: l end)], st)
      | NLoop w1 var it cnd body w2 els w3 =>
          let (t, st) := w_handle w1 st in
          let* (b, st) := elab_list elab_node body st in
          let (t2, st) := w_handle w2 st in
          let* (e, st) := elab_list elab_node els st in
          let (t3, st) := w_handle w3 st in
          GOk (t ++ [match els with [] => TFor var it cnd (b ++ t2) [] t3 | _ => TFor var it cnd (b ++ t2) (e ++ t3) [] end], st)
      | NBlockDef w1 name _ w2 => elab_block (Some name) {| ws_l := ws_l w1; ws_r := ws_r w2 |} st
      | NInclude x path => elab_include x path st
      | NCall x scope name args => elab_call x scope name args st
      | NFilterBlock w1 fname fargs nodes w2 =>
          let (t, st) := w_handle w1 st in
          let* (b, st) := elab_list elab_node nodes st in
          let (t2, st) := w_handle w2 st in
          GOk (t ++ [TFilter fname fargs (b ++ t2)], st)
      | NMacro w1 _ _ _ w2 => let (t, st) := w_flush (ws_l w1) st in GOk (t, w_prepare (ws_r w2) st)
      | NRaw w1 l w2 =>
          let (t, st) := w_handle w1 st in
          let* (b, st) := w_lit l st in
          let (t2, st) := w_handle w2 st in
          GOk (t ++ b ++ t2, st)
      | NExtends _ => GOk ([], st)
      | NBreak x => let (t, st) := w_handle x st in GOk (t ++ [TBreak], st)
      | NContinue x => let (t, st) := w_handle x st in GOk (t ++ [TContinue], st)
      end.
    Definition elab_nodes (nodes : list node) (top : bool) (st : wstate) : gres el :=
      let* (t, st) := elab_list elab_node nodes st in
      if top then
        let (t', st) := match next_ws st with Some _ => w_flush (Some (skip st)) st | None => ([], st) end in
        GOk (t ++ t', st)
      else GOk (t, st).
  End Nodes.
  Fixpoint elab (fuel : nat) (her : option heritage) (ctx : context) (sup : option (str * nat)) (nodes : list node) (top : bool)
    (st : wstate) : gres el :=
    match fuel with
    | O => GFuel
    | S f => elab_nodes (elab f) her ctx sup nodes top st
    end.
End Elab.

(** ** The meaning *)
Section Mean.
  Variable w : world.
  Variable inp : ginput.
  Notation V := (V w).
  Notation env := (env w).
  Notation store := (store w).
  (** Position in the innermost loop: index from 0, first, last. *)
  Definition lpos := option (N * bool * bool).

  Definition loop_value (lp : lpos) (a : str) : out V :=
    match lp with
    | None => Unset                                        (* not in a loop *)
    | Some (i, first, last) =>
        if str_eqb a (lit "index") then Done (w_num w (i + 1))
        else if str_eqb a (lit "index0") then Done (w_num w i)
        else if str_eqb a (lit "first") then Done (w_bool w first)
        else if str_eqb a (lit "last") then Done (w_bool w last)
        else Unset
    end.
  Section Eval.
    Variable en : env.
    Variable st : store.
    Variable lp : lpos.
    Variable gen : out V.                                  (* the body of a filter block, for its filter *)
    (** A variable, or else a field of the struct. *)
    Definition var_value (x : str) : out V :=
      match lookup w en x with Some s => slot_value w st s | None => Done (w_field w (w_self w) x) end.
    (** [Unset] also stands for what the generator rejects. *)
    Fixpoint teval (e : expr) : out V :=
      let args := out_map teval in
      match e with
      | BoolLit s | NumLit s => Done (w_tok w s)
      | StrLit s => Done (w_str w s)
      | CharLit s => Done (w_char w s)
      | Var x => if str_eqb x (lit "self") then Done (w_self w) else var_value x
      | Path l => Done (w_path w l)
      | Arr l => let^ vs := args l in Done (w_arr w vs)
      | Tuple l => let^ vs := args l in Done (w_tup w vs)
      | Attr o x => if is_loop o then loop_value lp x else let^ v := teval o in Done (w_field w v x)
      | Index a b => let^ v := teval a in let^ k := teval b in of_opt (w_index w v k)
      | NamedArgument _ e | Group e => teval e
      | Unary op e => let^ v := teval e in of_opt (w_un w op v)
      | BinOp op l r => lazy_bin w op (teval l) (teval r)
      | Range op l r =>
          let^ a := match l with Some l => let^ v := teval l in Done (Some v) | None => Done None end in
          let^ b := match r with Some r => let^ v := teval r in Done (Some v) | None => Done None end in
          of_opt (w_range w op a b)
      | Call (Var x) l => let^ v := var_value x in let^ vs := args l in of_opt (w_call w v vs)
      | Call (Attr o x) l =>
          if is_loop o then
            match l with
            | [a] =>                                       (* loop.cycle: the elements in turn *)
                let^ v := teval a in
                let^ vs := of_opt (w_elems w v) in
                match lp with
                | None => Unset
                | Some (i, _, _) => match vs with [] => Fails | _ => of_opt (nth_error vs (N.to_nat (i mod N.of_nat (length vs)))) end
                end
            | _ => Unset
            end
          else let^ v := teval o in let^ vs := args l in of_opt (w_method w v x vs)
      | Call f l => let^ v := teval f in let^ vs := args l in of_opt (w_call w v vs)
      | RustMacro _ _ => Unset
      | Try e => let^ v := teval e in of_opt (w_try w v)
      | Generated _ => gen
      | Filter name l =>
          if str_eqb name (lit "as_ref") || str_eqb name (lit "deref") then
            match l with [a] => teval a | _ => Unset end
          else if str_eqb name (lit "escape") || str_eqb name (lit "e") then
            match l with
            | [a] => let^ v := teval a in Done (w_unsafe w (f_escaper inp) v)
            | [a; StrLit x] => match escaper_for (f_escapers inp) x with
                               | Some esc => let^ v := teval a in Done (w_unsafe w esc v)
                               | None => Unset
                               end
            | _ => Unset
            end
          else if str_eqb name (lit "fmt") then
            match l with [a; StrLit f] => let^ v := teval a in of_opt (w_format w f [v]) | _ => Unset end
          else if str_eqb name (lit "format") then
            match l with StrLit f :: l => let^ vs := args l in of_opt (w_format w f vs) | _ => Unset end
          else if str_eqb name (lit "join") then let^ vs := args l in of_opt (w_join w vs)
          else if str_eqb name (lit "json") || str_eqb name (lit "tojson") then
            match l with [a] => let^ v := teval a in of_opt (w_filter w true (lit "json") [v]) | _ => Unset end
          else if str_eqb name (lit "safe") then
            match l with [a] => let^ v := teval a in Done (w_safe w v) | _ => Unset end
          else let^ vs := args l in of_opt (w_filter w (mem_str name shipped) name vs)
      end.
  End Eval.

  (** Output: [None] when a value in it could not be computed or displayed; then rendering fails.  The rest is still
      evaluated: a later part may have no meaning at all. *)
  Definition text := option str.
  Definition tapp (a b : text) : text := match a, b with Some x, Some y => Some (x ++ y) | _, _ => None end.
  (** An expression shows its value escaped, unless its outermost operation is one of the filters that opt out. *)
  Definition opts_out (e : expr) : bool :=
    match e with
    | Filter n _ => str_eqb n (lit "safe") || str_eqb n (lit "escape") || str_eqb n (lit "e")
    | _ => false
    end.
  Definition shown (e : expr) (v : V) : text := w_display w (if opts_out e then v else w_unsafe w (f_escaper inp) v).
  Definition show_expr (en : env) (st : store) (lp : lpos) (gen : out V) (e : expr) : out text :=
    match teval en st lp gen e with Done v => Done (shown e v) | Fails => Done None | Unset => Unset end.

  Definition mres := (text * env * store * flow)%type.
  Definition mean_list (f : tnode -> env -> store -> out mres) : list tnode -> env -> store -> out mres :=
    fix go (l : list tnode) (en : env) (st : store) : out mres :=
      match l with
      | [] => Done (Some [], en, st, Next)
      | n :: l' =>
          let^ (o, en, st, fl) := f n en st in
          match fl with
          | Next => let^ (o', en, st, fl) := go l' en st in Done (tapp o o', en, st, fl)
          | _ => Done (o, en, st, fl)
          end
      end.
  (** The part in its own scope *)
  Definition mean_scope (f : tnode -> env -> store -> out mres) (l : list tnode) (en_out en : env) (st : store) : out mres :=
    let^ (o, _, st, fl) := mean_list f l en st in Done (o, en_out, st, fl).
  (** Whether a branch of an if is taken, and with which variables.  [if let p = a && b] binds before [b]; with [||] it is
      nothing Rust knows. *)
  Definition ref_test (en : env) (st : store) (lp : lpos) (t : option cond_test) : out (option env) :=
    match t with
    | None => Done (Some en)
    | Some c =>
        match ct_target c with
        | None => let^ v := teval en st lp Unset (ct_expr c) in let^ b := of_opt (w_truth w v) in Done (if b then Some en else None)
        | Some p =>
            match ct_expr c with
            | BinOp op l r =>
                if str_eqb op (lit "&&") then
                  let^ v := teval en st lp Unset l in
                  match pmatch w p v with
                  | None => Done None
                  | Some bs => let^ x := teval (bind_vals w bs en) st lp Unset r in let^ b := of_opt (w_truth w x) in
                               Done (if b then Some (bind_vals w bs en) else None)
                  end
                else if str_eqb op (lit "||") then Unset
                else let^ v := teval en st lp Unset (BinOp op l r) in
                     Done (match pmatch w p v with Some bs => Some (bind_vals w bs en) | None => None end)
            | e => let^ v := teval en st lp Unset e in
                   Done (match pmatch w p v with Some bs => Some (bind_vals w bs en) | None => None end)
            end
        end
    end.
  Definition mean_branches (f : tnode -> env -> store -> out mres) (en : env) (st : store) (lp : lpos) :
    list (option cond_test * list tnode) -> out mres :=
    fix go (l : list (option cond_test * list tnode)) : out mres :=
      match l with
      | [] => Done (Some [], en, st, Next)
      | (t, body) :: l' =>
          let^ r := ref_test en st lp t in
          match r with Some en' => mean_scope f body en en' st | None => go l' end
      end.
  Definition mean_arms (f : tnode -> env -> store -> out mres) (en : env) (st : store) (v : V) :
    list (target * list tnode) -> out mres :=
    fix go (l : list (target * list tnode)) : out mres :=
      match l with
      | [] => Fails
      | (p, body) :: l' => match pmatch w p v with Some bs => mean_scope f body en (bind_vals w bs en) st | None => go l' end
      end.
  Definition ref_keep (en : env) (st : store) (lp : lpos) (p : target) (cnd : option expr) (v : V) : out bool :=
    match cnd with
    | None => Done true
    | Some c => let^ bs := of_opt (pmatch w p v) in let^ x := teval (bind_vals w bs en) st lp Unset c in of_opt (w_truth w x)
    end.
  Fixpoint mean (lp : lpos) (n : tnode) (en : env) (st : store) {struct n} : out mres :=
    match n with
    | TText s => Done (Some s, en, st, Next)
    | TExpr e => let^ t := show_expr en st lp Unset e in Done (t, en, st, Next)
    | TLet t None => let (en', st') := declare w (pattern_names t) en st in Done (Some [], en', st', Next)
    | TLet t (Some e) =>
        let^ v := teval en st lp Unset e in
        let new := let^ bs := of_opt (pmatch w t v) in Done (Some [], bind_vals w bs en, st, Next) in
        match t with
        | TName x =>
            match lookup w en x with
            | Some (Loc _ l) => match nth_error st l with
                                (* gives a declared variable its value; in the rest of the scope it is like any other *)
                                | Some None => Done (Some [], (x, Val w v) :: en, set_loc w st l v, Next)
                                | _ => Unset                  (* has a value from another scope: nothing is said *)
                                end
            | _ => new
            end
        | _ => new
        end
    | TIf bs => mean_branches (mean lp) en st lp bs
    | TMatch e arms => let^ v := teval en st lp Unset e in mean_arms (mean lp) en st v arms
    | TFor p it cnd body els tail =>
        let^ v := teval en st lp Unset it in
        let^ items := of_opt (w_iter w v) in
        let^ items := filter_items w (ref_keep en st lp p cnd) items in
        let^ (o, st, _) :=
          loop_items w (fun i first last v (t : text * store) =>
                          let^ bs := of_opt (pmatch w p v) in
                          let^ (o, _, st, fl) := mean_list (mean (Some (i, first, last))) body (bind_vals w bs en) (snd t) in
                          Done ((tapp (fst t) o, st), fl)) 0 items (Some [], st) in
        let^ (o1, _, st, fl) := match items with [] => mean_list (mean lp) els en st | _ => Done (Some [], en, st, Next) end in
        match fl with
        | Next => let^ (o2, _, st, fl) := mean_list (mean lp) tail en st in Done (tapp o (tapp o1 o2), en, st, fl)
        | _ => Done (tapp o o1, en, st, fl)
        end
    | TBlock body => mean_scope (mean lp) body en [] st
    | TInclude body => mean_scope (mean lp) body en en st
    | TMacro l body =>
        let^ vs := out_map (fun a => teval en st lp Unset (snd a)) l in
        mean_scope (mean lp) body en (bind_vals w (combine (map fst l) vs) en) st
    | TFilter name args body =>
        let^ (o, _, st, fl) := mean_list (mean lp) body en st in
        match fl with
        | Next =>
            match o with
            | None => Done (None, en, st, Next)
            | Some s => let^ t := show_expr en st lp (Done (w_text w s)) (feed (Filter name args)) in
                        Done (t, en, st, Next)
            end
        | _ => Unset
        end
    | TBreak => Done (Some [], en, st, Break)
    | TContinue => Done (Some [], en, st, Continue)
    end.
  (** The rendered text, [Fails], or [Unset] when the template has no meaning (see above). *)
  Definition render (l : list tnode) : out str :=
    let^ (o, _, _, fl) := mean_list (mean None) l [] [] in
    match fl, o with Next, Some s => Done s | Next, None => Fails | _, _ => Unset end.
End Mean.

(** The whole template, from the parsed files on: as [build_template]. *)
Section RefBuild.
  Variable inp : ginput.
  Variable find : str -> str -> res str.
  Definition assemble (fuel : nat) (templates : list (str * list node)) : gres (list tnode) :=
    let* contexts := build_contexts find templates in
    match get (f_path inp) contexts with
    | None => GErr (lit "no such template")
    | Some ctx =>
        let* her := match c_blocks ctx, c_extends ctx with
                    | [], None => GOk None
                    | _, _ => let* h := heritage_new fuel contexts ctx in GOk (Some h)
                    end in
        let root := match her with Some h => h_root h | None => ctx end in
        let* (t, _) := elab inp contexts find fuel her root None (c_nodes root) true ws_init in
        GOk t
    end.
End RefBuild.
