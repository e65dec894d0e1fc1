(** * Templates in which no name is captured.
    The generated code keeps template variables, struct fields and its own variables in one Rust scope, and lets an argument
    of a macro stand for the parameter.  This file says, on templates put together (RefSem.v), which programs do not notice.
    Every condition is about names or about a construct the generator does not translate one by one; for each there is a
    counterexample in Prop_Gen.v.  Nothing here mentions the generator or its state.  [scoped] is a boolean function. *)
From Verif Require Import Base Ws Ast Ident GenExpr Heritage Gen Sem RefSem.
Local Open Scope N_scope.

(** Names the generated code uses for itself. *)
Definition reserved : list str :=
  [lit "self"; lit "loop"; lit "_"; lit "writer"; lit "_loop_item"; lit "_iter"; lit "_did_loop"; lit "_cycle"; lit "_len"].
Definition no_raw (x : str) : bool := negb (mem_chr 35 x).                (* not [r#...] *)
Definition good (x : str) : bool :=
  no_raw x && negb (mem_chr 46 x) && negb (starts_with (lit "__filter_block") x) && negb (mem_str x reserved).

(** ** Expressions *)
(** The variables and fields an expression mentions; [loop] stands for the attributes of the loop. *)
Fixpoint fv (e : expr) : list str :=
  let fvs := fix fvs (l : list expr) : list str := match l with [] => [] | e :: l' => fv e ++ fvs l' end in
  match e with
  | BoolLit _ | NumLit _ | StrLit _ | CharLit _ | Path _ | RustMacro _ _ | Generated _ => []
  | Var x => if str_eqb x (lit "self") then [] else [x]
  | Arr l | Filter _ l | Tuple l => fvs l
  | Attr e _ | NamedArgument _ e | Unary _ e | Group e | Try e => fv e
  | Index a b | BinOp _ a b => fv a ++ fv b
  | Range _ a b => match a with Some a => fv a | None => [] end ++ match b with Some b => fv b | None => [] end
  | Call f l => fv f ++ fvs l
  end.
(** The variables it calls as functions. *)
Fixpoint called (e : expr) : list str :=
  let many := fix many (l : list expr) : list str := match l with [] => [] | e :: l' => called e ++ many l' end in
  match e with
  | BoolLit _ | NumLit _ | StrLit _ | CharLit _ | Var _ | Path _ | RustMacro _ _ | Generated _ => []
  | Arr l | Filter _ l | Tuple l => many l
  | Attr e _ | NamedArgument _ e | Unary _ e | Group e | Try e => called e
  | Index a b | BinOp _ a b => called a ++ called b
  | Range _ a b => match a with Some a => called a | None => [] end ++ match b with Some b => called b | None => [] end
  | Call f l => match f with Var x => [x] | _ => called f end ++ many l
  end.
(** No raw identifiers; [loop] only as [loop.x]. *)
Fixpoint plain (e : expr) : bool :=
  match e with
  | BoolLit _ | NumLit _ | StrLit _ | CharLit _ | Path _ | RustMacro _ _ => true
  | Var x => str_eqb x (lit "self") || good x
  | Arr l | Filter _ l | Tuple l => forallb plain l
  | Attr o x => no_raw x && (var_loop o || plain o)
  | NamedArgument _ e | Unary _ e | Group e | Try e => plain e
  | Index a b | BinOp _ a b => plain a && plain b
  | Range _ a b => match a with Some a => plain a | None => true end && match b with Some b => plain b | None => true end
  | Call f l => match f with Var x => good x | NamedArgument _ _ => false | _ => plain f end && forallb plain l
  | Generated _ => false
  end.

(** ** Patterns: the alternatives of [a | b] bind the same variables. *)
Fixpoint plain_target (t : target) : bool :=
  match t with
  | TTuple _ l => forallb plain_target l
  | TStruct _ l => forallb (fun x => no_raw (fst x) && plain_target (snd x)) l
  | TOrChain l => forallb plain_target l &&
                  match map pattern_names l with [] => true | x :: l' => forallb (list_eqb str_eqb x) l' end
  | _ => true
  end.

(** ** Templates.  [fields]: the fields of the struct that are used; no visible variable has the name of one.
    [vars]: the variables in scope, with [true] for a variable declared but not set in this scope.
    [shared]: names the current macro parameters stand for; [params]: the parameters of the macros around. *)
Section Scoped.
  Definition vars := list (str * bool).
  Definition known (G : vars) (x : str) : bool := match get x G with Some _ => true | None => false end.
  Definition unset (G : vars) (x : str) : bool := match get x G with Some b => b | None => false end.
  Definition scoped_expr (fields params : list str) (G : vars) (e : expr) : bool :=
    plain e && forallb (fun x => str_eqb x (lit "loop") || mem_str x fields || known G x) (fv e)
    && forallb (fun x => negb (mem_str x params)) (called e).
  (** A name that may be bound *)
  Definition bindable (shared params : list str) (x : str) : bool :=
    good x && negb (mem_str x shared) && negb (mem_str x params).
  Definition scoped_target (shared params : list str) (t : target) : bool :=
    plain_target t && forallb (bindable shared params) (pattern_names t).
  Definition minus (fields xs : list str) : list str := filter (fun x => negb (mem_str x xs)) fields.
  Definition bind_vars (b : bool) (xs : list str) (G : vars) : vars := rev (map (fun x => (x, b)) xs) ++ G.

  Definition scoped_list (f : vars -> tnode -> option vars) : vars -> list tnode -> option vars :=
    fix go (G : vars) (l : list tnode) : option vars :=
      match l with [] => Some G | n :: l' => let? G' := f G n in go G' l' end.
  Definition closed (f : vars -> tnode -> option vars) (G : vars) (l : list tnode) : bool :=
    match scoped_list f G l with Some _ => true | None => false end.
  Definition is_and_or (e : expr) : bool :=
    match e with BinOp op _ _ => str_eqb op (lit "&&") || str_eqb op (lit "||") | NamedArgument _ _ => true | _ => false end.
  (** The test of a branch: the fields and variables inside *)
  Definition scoped_test (fields shared params : list str) (G : vars) (t : option cond_test) : option (list str * vars) :=
    match t with
    | None => Some (fields, G)
    | Some c =>
        match ct_target c with
        | None => if scoped_expr fields params G (ct_expr c) then Some (fields, G) else None
        | Some p =>
            let G' := bind_vars false (pattern_names p) G in
            let fields' := minus fields (pattern_names p) in
            let ok := match ct_expr c with
                      | BinOp op l r =>
                          if str_eqb op (lit "&&") then scoped_expr fields params G l && negb (is_and_or l) && scoped_expr fields' params G' r
                          else negb (str_eqb op (lit "||")) && scoped_expr fields params G (ct_expr c)
                      | e => scoped_expr fields params G e
                      end in
            if scoped_target shared params p && ok then Some (fields', G') else None
        end
    end.
  Definition scoped_branches (f : list str -> vars -> tnode -> option vars) (fields shared params : list str) (G : vars) : list (option cond_test * list tnode) -> bool :=
    fix go (l : list (option cond_test * list tnode)) : bool :=
      match l with
      | [] => true
      | (t, b) :: l' => match scoped_test fields shared params G t with Some (fields', G') => closed (f fields') G' b | None => false end && go l'
      end.
  Definition scoped_arms (f : list str -> vars -> tnode -> option vars) (fields shared params : list str) (G : vars) : list (target * list tnode) -> bool :=
    fix go (l : list (target * list tnode)) : bool :=
      match l with
      | [] => true
      | (t, b) :: l' => scoped_target shared params t && closed (f (minus fields (pattern_names t))) (bind_vars false (pattern_names t) G) b && go l'
      end.

  (** Variables set outside of any construct: those of a block or an included template stay visible in Rust. *)
  Fixpoint top_names (n : tnode) : list str :=
    let many := fix many (l : list tnode) : list str := match l with [] => [] | n :: l' => top_names n ++ many l' end in
    match n with
    | TLet t _ => pattern_names t
    | TBlock b | TInclude b => many b
    | _ => []
    end.
  Definition tops (l : list tnode) : list str := concat (map top_names l).

  (** Macro arguments.  A variable or an attribute of one is shared with the parameter; everything else is copied. *)
  Definition is_copied (e : expr) : bool := match e with Var x => str_eqb x (lit "self") | Attr _ _ => false | _ => true end.
  Fixpoint simple_place (e : expr) : bool :=
    match e with Var _ => true | Attr o _ => var_loop o || simple_place o | _ => false end.
  Definition shared_names (G : vars) (l : list (str * expr)) : list str :=
    filter (fun x => known G x || str_eqb x (lit "loop")) (concat (map (fun a => if is_copied (snd a) then [] else fv (snd a)) l)).
  Fixpoint no_clash (l : list (str * expr)) : bool :=
    match l with
    | [] => true
    | (p, _) :: l' => negb (existsb (fun a => mem_str p (fv (snd a)) || str_eqb p (fst a)) l') && no_clash l'
    end.
  Definition scoped_args (fields shared params : list str) (G : vars) (l : list (str * expr)) : bool :=
    no_clash l &&
    forallb (fun a =>
      good (fst a) && str_eqb (normalize_identifier (fst a)) (fst a) &&
      scoped_expr fields params G (snd a) &&
      if is_copied (snd a) then negb (mem_str (fst a) shared) && negb (mem_str (fst a) (shared_names G l)) else simple_place (snd a)) l.
  Definition only_output (n : tnode) : bool := match n with TText _ | TExpr _ | TFilter _ _ _ => true | _ => false end.

  Fixpoint scoped_node (shared params fields : list str) (G : vars) (n : tnode) {struct n} : option vars :=
    let check (b : bool) := if b then Some G else None in
    let inside (xs : list str) := closed (scoped_node shared params (minus fields xs)) (bind_vars false xs G) in
    match n with
    | TText _ | TBreak | TContinue => Some G
    | TExpr e => check (scoped_expr fields params G e)
    | TLet t val =>
        if scoped_target shared params t && forallb (fun x => negb (mem_str x fields)) (pattern_names t) &&
           match val with
           | None => true
           | Some e => scoped_expr fields params G e &&
                       match t with
                       | TName x => negb (unset G x) || str_eqb (normalize_identifier x) x
                       | _ => forallb (fun x => negb (unset G x)) (pattern_names t)
                       end
           end
        then Some (bind_vars (match val with None => true | Some _ => false end) (pattern_names t) G) else None
    | TIf bs => check (negb (Nat.eqb (length bs) 0) && scoped_branches (scoped_node shared params) fields shared params G bs)
    | TMatch e arms => check (scoped_expr fields params G e && negb (Nat.eqb (length arms) 0)
                              && scoped_arms (scoped_node shared params) fields shared params G arms)
    | TFor t it cnd body els tail =>
        check (scoped_expr fields params G it && scoped_target shared params t && negb (mem_str (lit "loop") shared)
               && match cnd with
                  | Some c => scoped_expr (minus fields (pattern_names t)) params (bind_vars false (pattern_names t) G) c
                  | None => true
                  end
               && inside (pattern_names t) body && inside [] els && inside [] tail)
    | TBlock b => check (closed (scoped_node [] [] fields) [] b
                         && forallb (fun x => negb (known G x) && negb (mem_str x shared)) (tops b))
    | TInclude b => check (inside [] b && forallb (fun x => negb (known G x) && negb (mem_str x shared)) (tops b))
    | TMacro l b => check (scoped_args fields shared params G l &&
                           closed (scoped_node (shared_names G l ++ shared) (map fst l ++ params) (minus fields (map fst l)))
                                  (bind_vars false (map fst l) G) b)
    | TFilter name args b => check (scoped_expr fields params G (Filter name args) && negb (Nat.eqb (length b) 0)
                                    && forallb only_output b && inside [] b)
    end.
  Definition scoped (fields : list str) (l : list tnode) : bool := forallb good fields && closed (scoped_node [] [] fields) [] l.
End Scoped.
