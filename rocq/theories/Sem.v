(** * What generated code does when it runs.
    Evaluation is pure and parametric in a [world]: the values of the template's struct, the functions it calls and the
    filters.  Nothing is assumed about them except the few laws in [world_ok] where a theorem says so.  This file is about
    Rust, not about askama; it cites the askama sources only where generated code uses helpers of the askama crate. *)
From Verif Require Import Base Ws Ast Ident GenExpr Heritage Gen.
Local Open Scope N_scope.

(** Outcome of running something: a value, failure (an [Err] that is passed on, a panic), or reading a variable that is
    declared but not yet set (rustc rejects a program that may do so). *)
Inductive out (A : Type) := Done (a : A) | Fails | Unset.
Arguments Done {A} a.
Arguments Fails {A}.
Arguments Unset {A}.
Definition obnd {A B} (r : out A) (k : A -> out B) : out B :=
  match r with Done a => k a | Fails => Fails | Unset => Unset end.
Notation "'let^' x := r 'in' k" := (obnd r (fun x => k)) (at level 200, x pattern, right associativity).
Definition of_opt {A} (o : option A) : out A := match o with Some a => Done a | None => Fails end.
(** Left to right over a list *)
Definition out_map {A B} (f : A -> out B) : list A -> out (list B) :=
  fix go (l : list A) : out (list B) :=
    match l with [] => Done [] | a :: l' => let^ b := f a in let^ bs := go l' in Done (b :: bs) end.

Record world := {
  V : Type;
  w_tok : str -> V; w_str : str -> V; w_char : str -> V;     (* literals: as written, and the text between the quotes *)
  w_text : str -> V;                                         (* a string made at run time *)
  w_path : list str -> V;                                    (* a path such as Color::Red *)
  w_self : V;                                                (* the struct *)
  w_field : V -> str -> V;
  w_index : V -> V -> option V;
  w_un : str -> V -> option V; w_bin : str -> V -> V -> option V;
  w_bool : bool -> V; w_truth : V -> option bool;
  w_range : str -> option V -> option V -> option V;
  w_arr : list V -> V; w_tup : list V -> V;
  w_call : V -> list V -> option V; w_method : V -> str -> list V -> option V;
  w_try : V -> option V;                                     (* the ? operator *)
  w_filter : bool -> str -> list V -> option V;              (* a filter of askama (true) or of the user *)
  w_format : str -> list V -> option V; w_join : list V -> option V;
  w_safe : V -> V; w_unsafe : str -> V -> V;                 (* MarkupDisplay::new_safe, new_unsafe with an escaper *)
  w_display : V -> option str;                               (* Display *)
  w_iter : V -> option (list V);                             (* the items of a loop *)
  w_elems : V -> option (list V);                            (* len() and indexing, for loop.cycle *)
  w_num : N -> V; w_to_num : V -> option N;
  w_item : N -> bool -> bool -> V;                           (* LoopItem { index, first, last } *)
  w_untuple : list str -> nat -> V -> option (list V);       (* patterns *)
  w_unstruct : list str -> list str -> V -> option (list V);
  w_is_lit : target -> V -> bool;
  w_escape : str -> str -> str                               (* the escapers, by the expression that makes them *)
}.
(** The laws: LoopItem has the fields it is built from (askama/src/helpers.rs:41-48); adding one; numbers; and how
    MarkupDisplay is displayed (askama_escape/src/lib.rs:61-73). *)
Record world_ok (w : world) : Prop := {
  ok_index : forall i f l, w_field w (w_item w i f l) (lit "index") = w_num w i;
  ok_first : forall i f l, w_field w (w_item w i f l) (lit "first") = w_bool w f;
  ok_last : forall i f l, w_field w (w_item w i f l) (lit "last") = w_bool w l;
  ok_succ : forall i, w_bin w (lit "+") (w_num w i) (w_tok w (lit "1")) = Some (w_num w (i + 1));
  ok_num : forall i, w_to_num w (w_num w i) = Some i;
  ok_safe : forall v, w_display w (w_safe w v) = w_display w v;
  ok_unsafe : forall esc v, w_display w (w_unsafe w esc v) = option_map (w_escape w esc) (w_display w v)
}.

(** [r#x] is the identifier [x]. *)
Definition unraw (x : str) : str := match strip_prefix (lit "r#") x with Some y => y | None => x end.
Inductive flow := Next | Break | Continue.

Section Sem.
  Variable w : world.
  Notation V := (V w).

  (** A variable is bound to a value, or to a location if it was declared without one. *)
  Inductive slot := Val (v : V) | Loc (l : nat).
  Definition env := list (str * slot).
  Definition store := list (option V).
  Definition lookup (en : env) (x : str) : option slot := get x en.
  Definition slot_value (st : store) (s : slot) : out V :=
    match s with
    | Val v => Done v
    | Loc l => match nth_error st l with Some (Some v) => Done v | _ => Unset end
    end.
  Definition read (en : env) (st : store) (x : str) : out V :=
    match lookup en x with Some s => slot_value st s | None => Fails end.
  Fixpoint set_loc (st : store) (l : nat) (v : V) : store :=
    match st, l with
    | [], _ => []
    | _ :: st', O => Some v :: st'
    | o :: st', S l' => o :: set_loc st' l' v
    end.

  (** [&&] and [||] are lazy. *)
  Definition lazy_bin (op : str) (l : out V) (r : out V) : out V :=
    if str_eqb op (lit "&&") then
      let^ a := l in let^ x := of_opt (w_truth w a) in
      if x then let^ b := r in let^ y := of_opt (w_truth w b) in Done (w_bool w y) else Done (w_bool w false)
    else if str_eqb op (lit "||") then
      let^ a := l in let^ x := of_opt (w_truth w a) in
      if x then Done (w_bool w true) else let^ b := r in let^ y := of_opt (w_truth w b) in Done (w_bool w y)
    else let^ a := l in let^ b := r in of_opt (w_bin w op a b).

  Section Eval.
    Variable en : env.
    Variable st : store.
    (** References are transparent. *)
    Fixpoint reval (e : rexpr) : out V :=
      let args := out_map (fun a : bool * bool * rexpr => match a with (_, _, e) => reval e end) in
      match e with
      | RTok s => Done (w_tok w s)
      | RStr s => Done (w_str w s)
      | RChar s => Done (w_char w s)
      | RName s => if str_eqb s (lit "self") then Done (w_self w) else read en st s
      | RPath l => Done (w_path w l)
      | RArr l => let^ vs := out_map reval l in Done (w_arr w vs)
      | RTup l => let^ vs := out_map reval l in Done (w_tup w vs)
      | RField e x => let^ v := reval e in Done (w_field w v (unraw x))
      | RIndex e i => let^ v := reval e in let^ k := reval i in of_opt (w_index w v k)
      | RRef e | RDeref e | RGrp e => reval e
      | RUn op e => let^ v := reval e in of_opt (w_un w op v)
      | RBin op l r => lazy_bin op (reval l) (reval r)
      | RRange op l r =>
          let^ a := match l with Some l => let^ v := reval l in Done (Some v) | None => Done None end in
          let^ b := match r with Some r => let^ v := reval r in Done (Some v) | None => Done None end in
          of_opt (w_range w op a b)
      | RCycle e =>                                        (* _cycle[_loop_item.index % _len] *)
          let^ v := reval e in
          let^ vs := of_opt (w_elems w v) in
          let^ item := read en st (lit "_loop_item") in
          let^ i := of_opt (w_to_num w (w_field w item (lit "index"))) in
          match vs with [] => Fails | _ => of_opt (nth_error vs (N.to_nat (i mod N.of_nat (length vs)))) end
      | RCall (RField o x) l => let^ v := reval o in let^ vs := args l in of_opt (w_method w v (unraw x) vs)
      | RCall f l => let^ v := reval f in let^ vs := args l in of_opt (w_call w v vs)
      | RMacro _ _ => Unset                                (* not modelled *)
      | RTry e => let^ v := reval e in of_opt (w_try w v)
      | RFilter b x l => let^ vs := args l in of_opt (w_filter w b x vs)
      | RSafe _ (_, _, e) => let^ v := reval e in Done (w_safe w v)
      | REscape esc (_, _, e) | RMarkup esc e => let^ v := reval e in Done (w_unsafe w esc v)
      | RFormat fmt l => let^ vs := args l in of_opt (w_format w fmt vs)
      | RJoin l => let^ vs := out_map reval l in of_opt (w_join w vs)
      end.
  End Eval.

  (** Matching a value against a pattern: the variables bound. *)
  Definition match_all (f : target -> V -> option (list (str * V))) : list target -> list V -> option (list (str * V)) :=
    fix go (l : list target) (vs : list V) : option (list (str * V)) :=
      match l, vs with
      | [], [] => Some []
      | t :: l', v :: vs' => let? b := f t v in let? bs := go l' vs' in Some (b ++ bs)
      | _, _ => None
      end.
  Definition match_fields (f : target -> V -> option (list (str * V))) : list (str * target) -> list V -> option (list (str * V)) :=
    fix go (l : list (str * target)) (vs : list V) : option (list (str * V)) :=
      match l, vs with
      | [], [] => Some []
      | (_, t) :: l', v :: vs' => let? b := f t v in let? bs := go l' vs' in Some (b ++ bs)
      | _, _ => None
      end.
  Definition match_first (f : target -> V -> option (list (str * V))) : list target -> V -> option (list (str * V)) :=
    fix go (l : list target) (v : V) : option (list (str * V)) :=
      match l with [] => None | t :: l' => match f t v with Some b => Some b | None => go l' v end end.
  Fixpoint pmatch (t : target) (v : V) {struct t} : option (list (str * V)) :=
    match t with
    | TName x => if str_eqb x (lit "_") then Some [] else Some [(x, v)]
    | TTuple p l => let? vs := w_untuple w p (length l) v in match_all pmatch l vs
    | TStruct p l => let? vs := w_unstruct w p (map (fun x => unraw (fst x)) l) v in match_fields pmatch l vs
    | TOrChain l => match_first pmatch l v
    | _ => if w_is_lit w t v then Some [] else None
    end.
  Definition bind_vals (bs : list (str * V)) (en : env) : env := rev (map (fun b => (fst b, Val (snd b))) bs) ++ en.
  (** [let p;] declares the variables of the pattern, each with a new location. *)
  Fixpoint declare (xs : list str) (en : env) (st : store) : env * store :=
    match xs with [] => (en, st) | x :: xs' => declare xs' ((x, Loc (length st)) :: en) (st ++ [None]) end.
  Fixpoint pattern_names (t : target) : list str :=
    match t with
    | TName x => if str_eqb x (lit "_") then [] else [x]
    | TTuple _ l | TOrChain l => concat (map pattern_names l)
    | TStruct _ l => concat (map (fun x => pattern_names (snd x)) l)
    | _ => []
    end.

  (** ** Format strings: [{{] and [}}] are braces, [{name}] is an argument. *)
  Inductive piece := PChr (c : N) | PArg (name : str).
  Fixpoint fmt_parse (s : str) (name : option str) : option (list piece) :=
    match s, name with
    | [], None => Some []
    | [], Some _ => None
    | c :: s', None =>
        if c =? 123 then
          match s' with
          | d :: s'' => if d =? 123 then let? l := fmt_parse s'' None in Some (PChr 123 :: l) else fmt_parse s' (Some [])
          | [] => None
          end
        else if c =? 125 then
          match s' with
          | d :: s'' => if d =? 125 then let? l := fmt_parse s'' None in Some (PChr 125 :: l) else None
          | [] => None
          end
        else let? l := fmt_parse s' None in Some (PChr c :: l)
    | c :: s', Some acc =>
        if c =? 125 then let? l := fmt_parse s' None in Some (PArg (rev acc) :: l) else fmt_parse s' (Some (c :: acc))
    end.
  Fixpoint fmt_text (vals : list (str * V)) (l : list piece) : option str :=
    match l with
    | [] => Some []
    | PChr c :: l' => let? s := fmt_text vals l' in Some (c :: s)
    | PArg x :: l' => let? v := get x vals in let? d := w_display w v in let? s := fmt_text vals l' in Some (d ++ s)
    end.
  (** The arguments are evaluated before anything is written. *)
  Definition format (en : env) (st : store) (fmt : str) (args : list (nat * rexpr)) : out str :=
    let^ vals := out_map (fun a => let^ v := reval en st (snd a) in Done (arg_name (fst a), v)) args in
    let^ l := of_opt (fmt_parse fmt None) in
    of_opt (fmt_text vals l).

  (** ** Loops *)
  (** [_iter.filter(|p| cond)].  A condition that fails on any item makes the loop fail. *)
  Definition filter_items (keep : V -> out bool) : list V -> out (list V) :=
    fix go (l : list V) : out (list V) :=
      match l with [] => Done [] | v :: l' => let^ b := keep v in let^ vs := go l' in Done (if b then v :: vs else vs) end.
  (** [for (p, _loop_item) in TemplateLoop::new(_iter)]: askama/src/helpers.rs:5-39.  [T] is what is carried along. *)
  Definition loop_items {T} (body : N -> bool -> bool -> V -> T -> out (T * flow)) : N -> list V -> T -> out (T * flow) :=
    fix go (i : N) (l : list V) (t : T) : out (T * flow) :=
      match l with
      | [] => Done (t, Next)
      | v :: l' =>
          let^ (t', fl) := body i (i =? 0) (match l' with [] => true | _ => false end) v t in
          match fl with Break => Done (t', Next) | _ => go (i + 1) l' t' end
      end.

  (** ** Statements: the text written, the environment, the store and how control leaves. *)
  Definition res4 := (str * env * store * flow)%type.
  Definition exec_list (f : stmt -> env -> store -> out res4) : list stmt -> env -> store -> out res4 :=
    fix go (l : list stmt) (en : env) (st : store) : out res4 :=
      match l with
      | [] => Done ([], en, st, Next)
      | s :: l' =>
          let^ (o, en, st, fl) := f s en st in
          match fl with
          | Next => let^ (o', en, st, fl) := go l' en st in Done (o ++ o', en, st, fl)
          | _ => Done (o, en, st, fl)
          end
      end.
  (** A block: its variables are gone at its end. *)
  Definition exec_block (f : stmt -> env -> store -> out res4) (l : list stmt) (en_out en : env) (st : store) : out res4 :=
    let^ (o, _, st, fl) := exec_list f l en st in Done (o, en_out, st, fl).
  (** [if let p = &l && r]: rustc splits at every [&&] outside of parentheses; the pattern is matched against the first
      operand. *)
  Fixpoint let_chain (l : rexpr) : option (rexpr * list rexpr) :=
    match l with
    | RBin op a b => if str_eqb op (lit "&&") then let? (h, t) := let_chain a in Some (h, t ++ [b])
                     else if str_eqb op (lit "||") then None else Some (l, [])
    | _ => Some (l, [])
    end.
  Fixpoint all_true (en : env) (st : store) (l : list rexpr) : out bool :=
    match l with
    | [] => Done true
    | e :: l' => let^ x := reval en st e in let^ b := of_opt (w_truth w x) in if b then all_true en st l' else Done false
    end.
  Definition test_true (t : rtest) (en : env) (st : store) : out (option env) :=
    match t with
    | RIf e => let^ v := reval en st e in let^ b := of_opt (w_truth w v) in Done (if b then Some en else None)
    | RIfLet p e => let^ v := reval en st e in
                    Done (match pmatch p v with Some bs => Some (bind_vals bs en) | None => None end)
    | RIfLetChain p op l r =>
        match (if str_eqb op (lit "&&") then let_chain l else None) with
        | Some (h, rest) =>
            let^ v := reval en st h in
            match pmatch p v with
            | None => Done None
            | Some bs => let^ b := all_true (bind_vals bs en) st (rest ++ [r]) in
                         Done (if b then Some (bind_vals bs en) else None)
            end
        | None => Fails                                    (* not Rust *)
        end
    | RElse => Done (Some en)
    end.
  Definition exec_branches (f : stmt -> env -> store -> out res4) (en : env) (st : store) : list (rtest * list stmt) -> out res4 :=
    fix go (l : list (rtest * list stmt)) : out res4 :=
      match l with
      | [] => Done ([], en, st, Next)
      | (t, body) :: l' =>
          let^ r := test_true t en st in
          match r with Some en' => exec_block f body en en' st | None => go l' end
      end.
  Definition exec_arms (f : stmt -> env -> store -> out res4) (en : env) (st : store) (v : V) : list (target * list stmt) -> out res4 :=
    fix go (l : list (target * list stmt)) : out res4 :=
      match l with
      | [] => Fails                                        (* not Rust: a match is exhaustive *)
      | (p, body) :: l' => match pmatch p v with Some bs => exec_block f body en (bind_vals bs en) st | None => go l' end
      end.
  Definition keep_item (en : env) (st : store) (flt : option (target * rexpr)) (v : V) : out bool :=
    match flt with
    | None => Done true
    | Some (p, c) => let^ bs := of_opt (pmatch p v) in let^ x := reval (bind_vals bs en) st c in of_opt (w_truth w x)
    end.
  Fixpoint exec (s : stmt) (en : env) (st : store) {struct s} : out res4 :=
    match s with
    | SWriteStr t => Done (t, en, st, Next)
    | SWriteFmt fmt args => let^ t := format en st fmt args in Done (t, en, st, Next)
    | SDeclare p => let (en', st') := declare (pattern_names p) en st in Done ([], en', st', Next)
    | SLet p e => let^ v := reval en st e in let^ bs := of_opt (pmatch p v) in Done ([], bind_vals bs en, st, Next)
    | SAssign p e =>
        let^ v := reval en st e in
        match p with
        | TName x => match lookup en x with
                     | Some (Loc l) => match nth_error st l with
                                       | Some None => Done ([], en, set_loc st l v, Next)
                                       | _ => Fails        (* not Rust: assigned twice *)
                                       end
                     | _ => Fails                          (* not Rust: an immutable variable *)
                     end
        | _ => Fails
        end
    | SLetTuple xs es =>
        let^ vs := out_map (reval en st) es in
        Done ([], bind_vals (combine xs vs) en, st, Next)
    | SLetStr x s => Done ([], (x, Val (w_text w s)) :: en, st, Next)
    | SLetFmt x fmt args => let^ t := format en st fmt args in Done ([], (x, Val (w_text w t)) :: en, st, Next)
    | SIf bs => exec_branches exec en st bs
    | SMatch e arms => let^ v := reval en st e in exec_arms exec en st v arms
    | SLoop has_else it _ flt p body els tail =>
        let^ v := reval en st it in
        let^ items := of_opt (w_iter w v) in
        let^ items := filter_items (keep_item en st flt) items in
        (* the last component is [_did_loop]: set to true at the start of every round, asked by the else part *)
        let^ (o, st, did_loop, _) :=
          loop_items (fun i first last v (t : str * store * bool) =>
                        let^ bs := of_opt (pmatch p v) in
                        let^ (o, _, st, fl) := exec_list exec body ((lit "_loop_item", Val (w_item w i first last)) :: bind_vals bs en) (snd (fst t)) in
                        Done ((fst (fst t) ++ o, st, true), fl)) 0 items ([], st, false) in
        let^ (o1, _, st, fl) := if has_else && negb did_loop then exec_list exec els en st else Done ([], en, st, Next) in
        match fl with
        | Next => let^ (o2, _, st, fl) := exec_list exec tail en st in Done (o ++ o1 ++ o2, en, st, fl)
        | _ => Done (o ++ o1, en, st, fl)
        end
    | SBlock b => exec_block exec b en en st
    | SBreak => Done ([], en, st, Break)
    | SContinue => Done ([], en, st, Continue)
    | SIncludeBytes _ => Done ([], en, st, Next)
    end.
  Definition run (code : list stmt) : out str :=
    let^ (o, _, _, fl) := exec_list exec code [] [] in
    match fl with Next => Done o | _ => Fails end.         (* not Rust: break outside of a loop *)
End Sem.
