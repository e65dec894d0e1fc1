(** * Model of the code generator (askama_derive/src/generator.rs) for whole templates.
    The generator writes Rust source text line by line; here the statements are built as a tree.  Of the output buffer
    ([Buffer], generator.rs:1829-1892) only [indent] and [discard] are kept: the indentation of a line is [indent * 4] in
    [u8] arithmetic, which panics from 64 on (overflow checks are on in the profile proc macros are built with), and
    [dedent] fails at 0.  Expressions are the trees of GenExpr.v. *)
From Verif Require Import Base Ws Ast Ident GenExpr Heritage.
Local Open Scope N_scope.

(** ** Generated statements *)
Inductive rtest :=
| RIf (e : rexpr)                                    (* if *(&(e) as &bool) *)
| RIfLet (p : target) (e : rexpr)                    (* if let p = &e *)
| RIfLetChain (p : target) (op : str) (l r : rexpr)  (* if let p = &l op r *)
| RElse.
(** How the iterated expression is turned into an iterator, generator.rs:487-509. *)
Inductive iter_kind := IterRange | IterArray | IterInto | IterRefInto.
Inductive stmt :=
| SWriteStr (s : str)                                           (* writer.write_str("s")?; *)
| SWriteFmt (fmt : str) (args : list (nat * rexpr))             (* write!(writer, "fmt", expr0 = &e, ...)?; *)
| SDeclare (p : target)                                         (* let p; *)
| SLet (p : target) (e : rexpr)                                 (* let p = e; *)
| SAssign (p : target) (e : rexpr)                              (* p = e; *)
| SLetTuple (names : list str) (values : list rexpr)            (* let (a, b) = ((x), (y)); *)
| SLetStr (x : str) (s : str)                                   (* let x = "s"; *)
| SLetFmt (x : str) (fmt : str) (args : list (nat * rexpr))     (* let x = format!("fmt", expr0 = &e, ...); *)
| SIf (branches : list (rtest * list stmt))
| SMatch (e : rexpr) (arms : list (target * list stmt))         (* match &e { p => { ... } ... } *)
| SLoop (has_else : bool) (it : rexpr) (how : iter_kind) (flt : option (target * rexpr)) (var : target)
        (body els tail : list stmt)
    (* { let mut _did_loop = false; let _iter = it; let _iter = _iter.filter(|p| -> bool { e });
         for (var, _loop_item) in TemplateLoop::new(_iter) { _did_loop = true; body } if !_did_loop { els } tail } *)
| SBlock (b : list stmt)
| SBreak | SContinue
| SIncludeBytes (path : str).

(** ** State: the fields of [Generator] that change (generator.rs:28-41) and of the output [Buffer]. *)
Record gst := { s_locals : chain; s_ws : wstate; s_super : option (str * nat); s_buf : list writable; s_discard : bool;
                s_named : nat; o_indent : N; o_discard : bool }.
Definition set_locals (m : chain) (st : gst) : gst :=
  {| s_locals := m; s_ws := s_ws st; s_super := s_super st; s_buf := s_buf st; s_discard := s_discard st; s_named := s_named st;
     o_indent := o_indent st; o_discard := o_discard st |}.
Definition set_ws (w : wstate) (st : gst) : gst :=
  {| s_locals := s_locals st; s_ws := w; s_super := s_super st; s_buf := s_buf st; s_discard := s_discard st; s_named := s_named st;
     o_indent := o_indent st; o_discard := o_discard st |}.
Definition set_buf (b : list writable) (st : gst) : gst :=
  {| s_locals := s_locals st; s_ws := s_ws st; s_super := s_super st; s_buf := b; s_discard := s_discard st; s_named := s_named st;
     o_indent := o_indent st; o_discard := o_discard st |}.
Definition set_named (n : nat) (st : gst) : gst :=
  {| s_locals := s_locals st; s_ws := s_ws st; s_super := s_super st; s_buf := s_buf st; s_discard := s_discard st; s_named := n;
     o_indent := o_indent st; o_discard := o_discard st |}.
Definition set_indent (i : N) (st : gst) : gst :=
  {| s_locals := s_locals st; s_ws := s_ws st; s_super := s_super st; s_buf := s_buf st; s_discard := s_discard st; s_named := s_named st;
     o_indent := i; o_discard := o_discard st |}.
Definition set_discards (d o : bool) (st : gst) : gst :=
  {| s_locals := s_locals st; s_ws := s_ws st; s_super := s_super st; s_buf := s_buf st; s_discard := d; s_named := s_named st;
     o_indent := o_indent st; o_discard := o |}.

(** generator.rs:2141-2147: [WritableBuffer::push] *)
Definition push (ws : list writable) (st : gst) : gst :=
  if s_discard st then st else set_buf (s_buf st ++ ws) st.
Definition push_lits (ls : list str) (st : gst) : gst := push (map WLit ls) st.

(** ** The output buffer *)
(** generator.rs:1866-1878: [write] at the start of a line *)
Definition line (st : gst) : gres unit :=
  if o_discard st then GOk tt else if 64 <=? o_indent st then GPanic else GOk tt.
(** generator.rs:1880-1891 *)
Definition dedent (st : gst) : gres gst :=
  if o_indent st =? 0 then GErr (lit "dedent() called while indentation == 0") else GOk (set_indent (o_indent st - 1) st).
(** generator.rs:1848-1864: [writeln] of text ending in an opening brace, and of a closing brace *)
Definition open_brace (st : gst) : gst := if o_discard st then st else set_indent (o_indent st + 1) st.
Definition close_brace (st : gst) : gres gst :=
  if o_discard st then GOk st else let* st := dedent st in let* _ := line st in GOk st.
(** What reaches the output: leaves are dropped while discarding, of a structured statement the parts that were written while
    not discarding remain. *)
Definition emit (st : gst) (ss : list stmt) : list stmt := if o_discard st then [] else ss.
Definition emit_around (st : gst) (s : stmt) (inner : list stmt) : list stmt := if o_discard st then inner else [s].

Inductive level := LTop | LBlock | LNested.
Definition top_level (l : level) : bool := match l with LTop => true | _ => false end.
(** The result of generating code: the statements, the size hint and the new state. *)
Definition gen := (list stmt * N * gst)%type.

Section Gen.
  Variable inp : ginput.
  Variable contexts : list (str * context).
  (** [config.find_template(path, Some(start_at))] *)
  Variable find : str -> str -> res str.

  (** ** Whitespace (generator.rs:1773-1827), on the state *)
  Definition do_flush_ws (l : option handling) (st : gst) : gst :=
    let (out, w) := flush_ws (f_ws inp) l (s_ws st) in push_lits out (set_ws w st).
  Definition do_prepare_ws (r : option handling) (st : gst) : gst := set_ws (prepare_ws (f_ws inp) r (s_ws st)) st.
  Definition do_handle_ws (w : ws) (st : gst) : gst := do_prepare_ws (ws_r w) (do_flush_ws (ws_l w) st).
  (** generator.rs:1145-1173 *)
  Definition do_visit_lit (l : literal) (st : gst) : gres gst :=
    match visit_lit l (s_ws st) with None => GPanic | Some (out, w) => GOk (push_lits out (set_ws w st)) end.

  (** ** Flushing: generator.rs:1005-1030, [write_buf_writable] *)
  Definition write_buf_writable (st : gst) : gres gen :=
    let* (size, parts, named) := of_res (prepare_format inp (s_locals st) (s_buf st) (s_named st)) in
    let st' := set_named named (set_buf [] st) in
    match parts with
    | NoParts => GOk ([], size, st')
    | LitParts s => let* _ := line st in GOk (emit st [SWriteStr s], size, st')
    | FmtParts fmt args =>
        (* buf_expr is a Buffer of its own, one level deeper and never discarding (1056); the lines between the parentheses
           are one level deeper too *)
        if 63 <=? o_indent st then GPanic
        else let* _ := line st in GOk (emit st [SWriteFmt fmt args], size, st')
    end.

  (** ** let: generator.rs:836-902 *)
  Fixpoint is_shadowing_variable (m : chain) (t : target) : res bool :=
    match t with
    | TName x => match ch_get m (normalize_identifier x) with
                 | None => Ok false
                 | Some meta => Ok (l_init meta)
                 end
    | TTuple _ l => (fix f (l : list target) : res bool :=
                       match l with [] => Ok false | t :: l' => let! b := is_shadowing_variable m t in if b then Ok true else f l' end) l
    | TStruct _ l => (fix f (l : list (str * target)) : res bool :=
                        match l with [] => Ok false | (_, t) :: l' => let! b := is_shadowing_variable m t in if b then Ok true else f l' end) l
    | _ => Err (lit "literals are not allowed on the left-hand side of an assignment")
    end.
  Definition is_name (t : target) : option str := match t with TName x => Some x | _ => None end.
  Definition write_let (w : ws) (var : target) (val : option expr) (st : gst) : gres gen :=
    let st := do_handle_ws w st in
    match val with
    | None =>
        let* (code, _, st) := write_buf_writable st in
        let* _ := line st in
        let* (p, m) := of_res (visit_target (s_locals st) false var) in
        GOk (code ++ emit st [SDeclare p], 0, set_locals m st)
    | Some val =>
        let* r := of_res (visit_expr_root inp (s_locals st) val) in
        let* shadowed := of_res (is_shadowing_variable (s_locals st) var) in
        let* (code, _, st) := if shadowed then write_buf_writable st else GOk ([], 0, st) in
        let with_let := shadowed || match is_name var with
                                    | None => true
                                    | Some x => match ch_get (s_locals st) x with None => true | Some _ => false end
                                    end in
        let* _ := line st in
        let* (p, m) := of_res (visit_target (s_locals st) true var) in
        GOk (code ++ emit st [if with_let then SLet p r else SAssign p r], 0, set_locals m st)
    end.

  (** ** Macro arguments: generator.rs:597-694 *)
  (** 608-623: the named arguments, from the last one back *)
  Fixpoint named_arguments (def_args : list str) (rev_args : list expr) (acc : list (str * expr)) : res (list (str * expr)) :=
    match rev_args with
    | NamedArgument x e :: l =>
        if mem_str x def_args then named_arguments def_args l (put x (NamedArgument x e) acc)
        else Err (lit "no argument named in macro")
    | _ => Ok acc
    end.
  (** 633-687: the loop over the parameters; the scope and what goes into [let (names) = (values)] *)
  Fixpoint bind_args (named : list (str * expr)) (args : list expr) (params : list str) (index : nat) (positional : bool)
    (m : chain) : res (chain * list str * list rexpr) :=
    match params with
    | [] => Ok (m, [], [])
    | p :: params' =>
        let! (e, positional) := match get p named with
                                | Some e => Ok (e, false)
                                | None => if positional then match nth_error args index with Some e => Ok (e, true) | None => Panic end
                                          else Err (lit "cannot have unnamed argument after named argument in macro")
                                end in
        let by_value :=
          let! r := visit_expr_root inp m e in
          let! m' := ch_insert m p m_default in
          let! (m'', names, values) := bind_args named args params' (S index) positional m' in
          Ok (m'', p :: names, r :: values) in
        match e with
        | Var x =>
            if str_eqb x (lit "self") then by_value
            else let! m' := ch_insert m p (m_with_ref (ch_resolve_or_self m x)) in
                 bind_args named args params' (S index) positional m'
        | Attr obj attr =>
            let! (r, _) := visit_expr inp m (Attr obj attr) in
            let r := match ch_resolve m (show r) with Some r' => r' | None => r end in
            let! m' := ch_insert m p (m_with_ref r) in
            bind_args named args params' (S index) positional m'
        | _ => by_value
        end
    end.

  (** ** Blocks and includes: the context of the callee extended with macros and imports of the caller, generator.rs:798-811
      and 953-966 *)
  Definition merge_context (outer inner : context) : context :=
    {| c_nodes := c_nodes inner; c_extends := c_extends inner; c_blocks := c_blocks inner;
       c_macros := fold_left (fun l x => put_new (fst x) (snd x) l) (c_macros outer) (c_macros inner);
       c_imports := fold_left (fun l x => put_new (fst x) (snd x) l) (c_imports outer) (c_imports inner) |}.

  (** ** Filter blocks: generator.rs:2112-2121 and 713-722 *)
  Fixpoint insert_in_filter (x : str) (e : expr) : expr :=
    match e with
    | Filter name (a :: l) => match a with
                              | Filter _ _ => Filter name (insert_in_filter x a :: l)
                              | _ => Filter name (Generated x :: a :: l)
                              end
    | Filter name [] => Filter name [Generated x]
    | e => e
    end.
  Definition filter_block_name (id : nat) : str := lit "__filter_block" ++ nat_str id.
  Fixpoint fresh_filter_name (fuel : nat) (m : chain) (id : nat) : gres str :=
    match ch_get m (filter_block_name id) with
    | None => GOk (filter_block_name id)
    | Some _ => match fuel with O => GFuel | S f => fresh_filter_name f m (S id) end
    end.
  Fixpoint chain_size (m : chain) : nat :=
    match m with Chain p ss => (length (concat ss) + match p with Some m' => chain_size m' | None => 0 end)%nat end.

  (** ** The node handlers.  [expand] generates code for the body of a macro, block or included template. *)
  Section Nodes.
    Variable expand : option heritage -> context -> list node -> level -> gst -> gres gen.
    Variable her : option heritage.
    Variable ctx : context.

    (** A list of nodes, generator.rs:255-327 *)
    Definition gen_list (f : node -> gst -> gres gen) : list node -> gst -> gres gen :=
      fix go (l : list node) (st : gst) : gres gen :=
        match l with
        | [] => GOk ([], 0, st)
        | n :: l' => let* (c1, z1, st) := f n st in
                     let* (c2, z2, st) := go l' st in
                     GOk (c1 ++ c2, z1 + z2, st)
        end.

    (** write_if, generator.rs:349-409: the branches from the [i]-th on.  The result is the code written before the [if], the
        branches, the flushed sizes, the sizes of the arms and whether there was an else.  The code flushed before a branch
        belongs to the branch before it. *)
    Definition if_test (first : bool) (test : option cond_test) (st : gst) : gres (rtest * gst) :=
      match test with
      | None => let* st := dedent st in let* _ := line st in GOk (RElse, st)
      | Some t =>
          let* st := if first then GOk st else dedent st in
          let* _ := line st in
          match ct_target t with
          | Some p =>
              match ct_expr t with
              | BinOp op l r =>
                  if str_eqb op (lit "||") || str_eqb op (lit "&&") then
                    let* l' := of_res (visit_expr_root inp (s_locals st) l) in
                    let* (p', m) := of_res (visit_target (s_locals st) true p) in
                    let* r' := of_res (visit_expr_root inp m r) in
                    GOk (RIfLetChain p' op l' r', set_locals m st)
                  else
                    let* e' := of_res (visit_expr_root inp (s_locals st) (ct_expr t)) in
                    let* (p', m) := of_res (visit_target (s_locals st) true p) in
                    GOk (RIfLet p' e', set_locals m st)
              | e =>
                  let* e' := of_res (visit_expr_root inp (s_locals st) e) in
                  let* (p', m) := of_res (visit_target (s_locals st) true p) in
                  GOk (RIfLet p' e', set_locals m st)
              end
          | None => let* e' := of_res (visit_expr_root inp (s_locals st) (ct_expr t)) in GOk (RIf e', st)
          end
      end.
    Definition pop_locals (st : gst) : gres gst := let* m := of_res (ch_pop (s_locals st)) in GOk (set_locals m st).
    Definition push_locals (st : gst) : gst := set_locals (ch_push (s_locals st)) st.
    Definition gen_branches (f : node -> gst -> gres gen) (w_end : ws) :
      bool -> list cond -> gst -> gres (list stmt * list (rtest * list stmt) * N * list N * bool * gst) :=
      fix go (first : bool) (cs : list cond) (st : gst) :=
        match cs with
        | [] =>                                                            (* 410-415 *)
            let st := do_handle_ws w_end st in
            let* (code, z, st) := write_buf_writable st in
            let* st := close_brace st in
            let* st := pop_locals st in
            GOk (code, [], z, [], false, st)
        | Cond w test nodes :: cs' =>
            let st := do_handle_ws w st in
            let* (before, z, st) := write_buf_writable st in
            let* st := if first then GOk st else pop_locals st in
            let st := push_locals st in
            let* (t, st) := if_test first test st in
            let st := open_brace st in
            let* (body, size, st) := gen_list f nodes st in
            let* (after, rest, z', sizes, has_else, st) := go false cs' st in
            GOk (before, (t, body ++ after) :: rest, z + z', size :: sizes, match test with None => true | Some _ => has_else end, st)
        end.

    (** write_match, generator.rs:441-463: likewise *)
    Definition gen_arms (f : node -> gst -> gres gen) (w_end : ws) :
      bool -> list when_ -> gst -> gres (list stmt * N * list (target * list stmt) * list N * gst) :=
      fix go (first : bool) (arms : list when_) (st : gst) :=
        match arms with
        | [] =>
            let st := do_handle_ws w_end st in
            let* (code, z, st) := write_buf_writable st in
            let* st := close_brace st in
            let* st := pop_locals st in
            GOk (code, z, [], [], st)
        | When w t nodes :: arms' =>
            let st := do_handle_ws w st in
            let* (before, z, st) := if first then GOk ([], 0, st)
                                    else let* (code, z, st) := write_buf_writable st in
                                         let* st := close_brace st in
                                         let* st := pop_locals st in GOk (code, z, st) in
            let st := push_locals st in
            let* _ := line st in
            let* (p, m) := of_res (visit_target (s_locals st) true t) in
            let st := open_brace (set_locals m st) in
            let* (body, size, st) := gen_list f nodes st in
            let* (after, z', rest, sizes, st) := go false arms' st in
            GOk (before, z, (p, body ++ after) :: rest, (size + z') :: sizes, st)
        end.

    (** generator.rs:487-509 *)
    Definition iter_how (it : expr) (r : rexpr) : iter_kind :=
      match it with
      | Range _ _ _ => IterRange
      | Arr _ => IterArray
      | Call _ _ | Index _ _ => IterInto
      | _ => if starts_with (lit "self.") (show r) then IterRefInto
             else match it with Attr _ _ => IterRefInto | _ => IterInto end
      end.

    (** write_loop, generator.rs:470-552; [body] and [els] generate the parts *)
    Definition write_loop (body els : gst -> gres gen) (has_else : bool) (w1 : ws) (var : target) (it : expr) (cnd : option expr)
      (w2 w3 : ws) (st : gst) : gres gen :=
      let st := push_locals (do_handle_ws w1 st) in
      let* r := of_res (visit_expr_root inp (s_locals st) it) in
      let* (before, flushed, st) := write_buf_writable st in
      let* _ := line st in
      let st := open_brace st in
      let* _ := line st in
      let* (flt, st) :=
        match cnd with
        | None => GOk (None, st)
        | Some c =>
            let st := push_locals st in
            let* (p, m) := of_res (visit_target (s_locals st) true var) in
            let* c' := of_res (visit_expr_root inp m c) in
            let* st := pop_locals (set_locals m st) in
            GOk (Some (p, c'), st)
        end in
      let st := push_locals st in
      let* _ := line st in
      let* (p, m) := of_res (visit_target (s_locals st) true var) in
      let st := open_brace (set_locals m st) in
      let* _ := if has_else then line st else GOk tt in
      let* (c1, z1, st) := body st in
      let st := do_handle_ws w2 st in
      let* (c1', z1', st) := write_buf_writable st in
      let* st := pop_locals st in
      let* st := close_brace st in
      let* (celse, ctail, z2, st) :=
        if has_else then
          let* _ := line st in
          let st := push_locals (open_brace st) in
          let* (c2, z2, st) := els st in
          let st := do_handle_ws w3 st in
          let* (c2', z2', st) := write_buf_writable st in
          let* st := pop_locals st in
          let* st := close_brace st in
          GOk (c2 ++ c2', [], z2 + z2', st)
        else
          let st := do_handle_ws w3 st in
          let* (c, z2, st) := write_buf_writable st in
          GOk ([], c, z2, st) in
      let* st := close_brace st in
      let* st := pop_locals st in
      GOk (before ++ emit_around st (SLoop has_else r (iter_how it r) flt p (c1 ++ c1') celse ctail) (c1 ++ c1' ++ celse ++ ctail),
           flushed + ((z1 + z1') * 3 + z2) / 2, st).

    (** write_block, generator.rs:904-1003; [name] is [None] for super() *)
    Definition write_block (name : option str) (outer : ws) (st : gst) : gres gen :=
      let st := do_flush_ws (ws_l outer) st in
      let* cur := match name, s_super st with
                  | Some x, None => GOk (x, O)
                  | Some x, Some (prev, _) => if str_eqb x prev then GErr (lit "cannot define recursive blocks") else GOk (x, O)
                  | None, Some (prev, g) => GOk (prev, S g)
                  | None, None => GErr (lit "cannot call 'super()' outside block")
                  end in
      let* (before, _, st) := write_buf_writable st in
      let same := match f_block inp, name with Some a, Some b => str_eqb a b | None, None => true | _, _ => false end in
      let fragment := same && s_discard st in
      let discard := if fragment then false else s_discard st in
      let prev_o := o_discard st in
      match her with
      | None => GErr (lit "no block ancestors available")
      | Some h =>
          match get (fst cur) (h_blocks h) with
          | None => GPanic                                                  (* heritage.blocks[cur.0] *)
          | Some defs =>
              match nth_error defs (snd cur) with
              | None => GErr (lit "no block found")
              | Some (child_ctx, def) =>
                  let child :=
                    {| s_locals := ch_empty; s_ws := prepare_ws (f_ws inp) (ws_r (b_ws1 def)) ws_init; s_super := Some cur;
                       s_buf := s_buf st; s_discard := discard; s_named := O; o_indent := o_indent st; o_discard := discard |} in
                  let* (code, size, child) := expand her (merge_context ctx child_ctx) (b_nodes def) LBlock child in
                  let* (code', _, child) := if ch_is_current_empty (s_locals child) then GOk ([], 0, child)
                                            else write_buf_writable child in
                  let child := do_flush_ws (ws_l (b_ws2 def)) child in
                  let st := {| s_locals := s_locals st; s_ws := s_ws st; s_super := s_super st; s_buf := s_buf child;
                               s_discard := if fragment then true else s_discard child;
                               s_named := s_named st; o_indent := o_indent child; o_discard := prev_o |} in
                  GOk (before ++ code ++ code', size, do_prepare_ws (ws_r outer) st)
              end
          end
      end.

    (** write_call, generator.rs:554-705 *)
    Definition write_call (w : ws) (scope : option str) (name : str) (args : list expr) (st : gst) : gres gen :=
      if str_eqb name (lit "super") then write_block None w st
      else
        let* (def, own_ctx) :=
          match scope with
          | Some s => match get s (c_imports ctx) with
                      | None => GErr (lit "no import found for scope")
                      | Some path => match get path contexts with
                                     | None => GErr (lit "context not found")
                                     | Some mctx => match get name (c_macros mctx) with
                                                    | None => GErr (lit "macro not found in scope")
                                                    | Some d => GOk (d, mctx)
                                                    end
                                     end
                      end
          | None => match get name (c_macros ctx) with None => GErr (lit "macro not found") | Some d => GOk (d, ctx) end
          end in
        let st := push_locals (do_flush_ws (ws_l w) st) in
        let* (before, _, st) := write_buf_writable st in
        let* _ := line st in
        let st := do_prepare_ws (ws_r (k_ws1 def)) (open_brace st) in
        if negb (Nat.eqb (length args) (length (k_args def))) then GErr (lit "macro expected a different number of arguments")
        else
          let* named := of_res (named_arguments (k_args def) (rev args) []) in
          let* (m, names, values) := of_res (bind_args named args (k_args def) O true (s_locals st)) in
          let st := set_locals m st in
          let* _ := match names with [] => GOk tt | _ => line st end in
          let* (body, z, st) := expand her own_ctx (k_nodes def) LNested st in
          let st := do_flush_ws (ws_l (k_ws2 def)) st in
          let* (after, z', st) := write_buf_writable st in
          let* st := close_brace st in
          let* st := pop_locals st in
          let st := do_prepare_ws (ws_r w) st in
          let bind := match names with [] => [] | _ => emit st [SLetTuple names values] end in
          GOk (before ++ emit_around st (SBlock (bind ++ body ++ after)) (body ++ after), z + z', st).

    (** handle_include, generator.rs:775-834 *)
    Definition write_include (w : ws) (path : str) (st : gst) : gres gen :=
      let st := do_flush_ws (ws_l w) st in
      let* (before, _, st) := write_buf_writable st in
      let* p := of_res (find path (f_path inp)) in
      let* _ := line st in
      match get p contexts with
      | None => GPanic                                                     (* self.contexts[&path] *)
      | Some c =>
          let child_ctx := merge_context ctx c in
          let* h := match c_blocks child_ctx, c_extends child_ctx with
                    | [], None => GOk None
                    | _, _ => let* h := heritage_new (S (length contexts)) contexts child_ctx in GOk (Some h)
                    end in
          let handle_ctx := match h with Some h => h_root h | None => child_ctx end in
          let child := {| s_locals := ch_with_parent (s_locals st); s_ws := ws_init; s_super := None; s_buf := [];
                          s_discard := s_discard st; s_named := O; o_indent := o_indent st; o_discard := o_discard st |} in
          let* (code, z, child) := expand h handle_ctx (c_nodes handle_ctx) LTop child in
          let* (code', z', child) := write_buf_writable child in
          let st := set_indent (o_indent child) st in
          GOk (before ++ emit st [SIncludeBytes p] ++ code ++ code', z + z', do_prepare_ws (ws_r w) st)
      end.

    (** write_filter_block, generator.rs:707-773 *)
    Definition write_filter_block (body : gst -> gres gen) (w1 : ws) (fname : str) (fargs : list expr) (w2 : ws) (st : gst) : gres gen :=
      let st := do_flush_ws (ws_l w1) st in
      let* var := fresh_filter_name (chain_size (s_locals st)) (s_locals st) O in
      let current_buf := s_buf st in
      let st := do_prepare_ws (ws_r w1) (set_buf [] st) in
      let* (code, size, st) := body st in
      let st := do_flush_ws (ws_l w2) st in
      let* (wsize, parts, named) := of_res (prepare_format inp (s_locals st) (s_buf st) (s_named st)) in
      let st := set_named named (set_buf [] st) in
      match parts with
      | NoParts => GOk (code, 0, st)
      | _ =>
          (* the Buffer of the arguments is two levels deeper (732 and 1056) *)
          let* _ := match parts with FmtParts _ _ => if 62 <=? o_indent st then GPanic else GOk tt | _ => GOk tt end in
          let* _ := line st in
          let s := match parts with FmtParts fmt args => SLetFmt var fmt args | LitParts s => SLetStr var s | NoParts => SBlock [] end in
          let st := set_buf current_buf st in
          let* (r, wrapped) := of_res (visit_expr inp (s_locals st) (insert_in_filter var (Filter fname fargs))) in
          let st := do_prepare_ws (ws_r w2) (push [WGen r wrapped] st) in
          let* m := of_res (ch_insert (s_locals st) var m_initialized) in
          GOk (code ++ emit st [s], size + wsize, set_locals m st)
      end.

    (** [handle], generator.rs:255-327: one node.  [sizes]: generator.rs:414-418, 466. *)
    Fixpoint handle_node (lv : level) (n : node) (st : gst) : gres gen :=
      match n with
      | NLit l => let* st := do_visit_lit l st in GOk ([], 0, st)
      | NComment w _ => GOk ([], 0, do_handle_ws w st)
      | NExpr w e => GOk ([], 0, push [WExpr e] (do_handle_ws w st))
      | NLet w var val => write_let w var val st
      | NIf w cs =>
          let* (before, branches, flushed, sizes, has_else, st) := gen_branches (handle_node LNested) w true cs st in
          let* z := of_res (median (if has_else then sizes else sizes ++ [0])) in
          GOk (before ++ emit_around st (SIf branches) (concat (map snd branches)), flushed + z, st)
      | NMatch w1 e arms w2 =>
          let st := do_flush_ws (ws_l w1) st in
          let* (before, flushed, st) := write_buf_writable st in
          let* r := of_res (visit_expr_root inp (s_locals st) e) in
          let* _ := line st in
          let st := open_brace st in
          let* (_, _, arms', sizes, st) := gen_arms (handle_node LNested) w2 true arms st in
          let* st := close_brace st in
          let* z := of_res (median sizes) in
          GOk (before ++ emit_around st (SMatch r arms') (concat (map snd arms')), flushed + z, st)
      | NLoop w1 var it cnd body w2 els w3 =>
          write_loop (gen_list (handle_node LNested) body) (gen_list (handle_node LNested) els)
            (match els with [] => false | _ => true end) w1 var it cnd w2 w3 st
      | NBlockDef w1 name _ w2 => write_block (Some name) {| ws_l := ws_l w1; ws_r := ws_r w2 |} st
      | NInclude w path => write_include w path st
      | NCall w scope name args => write_call w scope name args st
      | NFilterBlock w1 fname fargs nodes w2 =>
          write_filter_block (gen_list (handle_node LNested) nodes) w1 fname fargs w2 st
      | NMacro w1 _ _ _ w2 =>
          if top_level lv then GOk ([], 0, do_prepare_ws (ws_r w2) (do_flush_ws (ws_l w1) st))
          else GErr (lit "macro blocks only allowed at the top level")
      | NRaw w1 l w2 => let* st := do_visit_lit l (do_handle_ws w1 st) in GOk ([], 0, do_handle_ws w2 st)
      | NImport w _ _ => if top_level lv then GOk ([], 0, do_handle_ws w st) else GErr (lit "import blocks only allowed at the top level")
      | NExtends _ => if top_level lv then GOk ([], 0, st) else GErr (lit "extend blocks only allowed at the top level")
      | NBreak w => let* (code, _, st) := write_buf_writable (do_handle_ws w st) in
                    let* _ := line st in GOk (code ++ emit st [SBreak], 0, st)
      | NContinue w => let* (code, _, st) := write_buf_writable (do_handle_ws w st) in
                       let* _ := line st in GOk (code ++ emit st [SContinue], 0, st)
      end.
    (** generator.rs:248-338 *)
    Definition handle_nodes (nodes : list node) (lv : level) (st : gst) : gres gen :=
      let* (code, z, st) := gen_list (handle_node lv) nodes st in
      if top_level lv then
        let st := match next_ws (s_ws st) with Some _ => do_flush_ws (Some (skip (s_ws st))) st | None => st end in
        let* (code', z', st) := write_buf_writable st in
        GOk (code ++ code', z + z', st)
      else GOk (code, z, st).
  End Nodes.

  (** The recursion through macros, blocks and includes has no bound of its own. *)
  Fixpoint handle (fuel : nat) (her : option heritage) (ctx : context) (nodes : list node) (lv : level) (st : gst) : gres gen :=
    match fuel with
    | O => GFuel
    | S f => handle_nodes (handle f) her ctx nodes lv st
    end.

  (** generator.rs:45-66 *)
  Definition initial (indent : N) : gst :=
    {| s_locals := ch_empty; s_ws := ws_init; s_super := None; s_buf := []; s_discard := match f_block inp with Some _ => true | None => false end;
       s_named := O; o_indent := indent; o_discard := false |}.
  (** generator.rs:87-140: [impl_template]: the body of [render_into] and the size hint.  The body is at indentation 2; the
      two closing braces must find it there. *)
  Definition impl_template (fuel : nat) (her : option heritage) (ctx : context) : gres (list stmt * N) :=
    let root := match her with Some h => h_root h | None => ctx end in
    let* (code, z, st) := handle fuel her root (c_nodes root) LTop (initial 2) in
    let* _ := line st in
    let* st := close_brace st in
    let* _ := line st in
    let* st := close_brace st in
    GOk (code, z).
End Gen.

(** lib.rs:55-94: [build_template], from the parsed templates on.  The contexts are built in the order of the map here; the
    code uses the (unspecified) order of a HashMap, which matters only for which error is reported. *)
Section Build.
  Variable inp : ginput.
  Variable find : str -> str -> res str.
  Fixpoint build_contexts (templates : list (str * list node)) : gres (list (str * context)) :=
    match templates with
    | [] => GOk []
    | (p, nodes) :: l => let* c := context_new find p nodes in let* cs := build_contexts l in GOk ((p, c) :: cs)
    end.
  Definition build_template (fuel : nat) (templates : list (str * list node)) : gres (list stmt * N) :=
    let* contexts := build_contexts templates in
    match get (f_path inp) contexts with
    | None => GPanic
    | Some ctx =>
        let* her := match c_blocks ctx, c_extends ctx with
                    | [], None => GOk None
                    | _, _ => let* h := heritage_new fuel contexts ctx in
                              match f_block inp with
                              | Some b => match get b (h_blocks h) with None => GErr (lit "cannot find block") | Some _ => GOk (Some h) end
                              | None => GOk (Some h)
                              end
                    end in
        impl_template inp contexts find fuel her ctx
    end.
End Build.
