(** * Expressions whose evaluation has effects.
    In Sem.v evaluation is pure.  Here a call of a Rust function or method, a Rust macro, the [?] operator and a filter of the
    user may read and change a state, so that it matters how often and in which order they are evaluated.  Reading a variable
    or a field, indexing, operators, the filters of askama and [Display] stay pure.  Like Sem.v this is about Rust, not about
    askama. *)
From Verif Require Import Base Ws Ast Ident GenExpr Heritage Gen Sem Shipped.
Local Open Scope N_scope.

Section Effect.
  Variable w : world.
  Notation V := (V w).
  Variable T : Type.
  Definition eff (A : Type) := T -> out A * T.
  Record effects := {
    x_call : V -> list V -> T -> option V * T;
    x_method : V -> str -> list V -> T -> option V * T;
    x_macro : list str -> str -> T -> option V * T;
    x_try : V -> T -> option V * T;
    x_filter : str -> list V -> T -> option V * T
  }.
  Variable x : effects.

  Definition pure {A} (o : out A) : eff A := fun t => (o, t).
  Definition ebnd {A B} (c : eff A) (k : A -> eff B) : eff B :=
    fun t => match c t with (Done a, t') => k a t' | (Fails, t') => (Fails, t') | (Unset, t') => (Unset, t') end.
  Definition of_act {A} (f : T -> option A * T) : eff A := fun t => let (o, t') := f t in (of_opt o, t').
  Definition eff_map {A B} (f : A -> eff B) : list A -> eff (list B) :=
    fix go (l : list A) : eff (list B) :=
      match l with [] => pure (Done []) | a :: l' => ebnd (f a) (fun b => ebnd (go l') (fun bs => pure (Done (b :: bs)))) end.
  Definition eff_bin (op : str) (l r : eff V) : eff V :=
    if str_eqb op (lit "&&") then
      ebnd l (fun a => ebnd (pure (of_opt (w_truth w a))) (fun p : bool =>
        if p then ebnd r (fun b => ebnd (pure (of_opt (w_truth w b))) (fun y => pure (Done (w_bool w y)))) else pure (Done (w_bool w false))))
    else if str_eqb op (lit "||") then
      ebnd l (fun a => ebnd (pure (of_opt (w_truth w a))) (fun p : bool =>
        if p then pure (Done (w_bool w true)) else ebnd r (fun b => ebnd (pure (of_opt (w_truth w b))) (fun y => pure (Done (w_bool w y))))))
    else ebnd l (fun a => ebnd r (fun b => pure (of_opt (w_bin w op a b)))).

  Section Eval.
    Variable en : env w.
    Variable st : store w.
    Fixpoint xeval (e : rexpr) : eff V :=
      let args := eff_map (fun a : bool * bool * rexpr => match a with (_, _, e) => xeval e end) in
      let opt o := match o with Some l => ebnd (xeval l) (fun v => pure (Done (Some v))) | None => pure (Done None) end in
      match e with
      | RTok s => pure (Done (w_tok w s))
      | RStr s => pure (Done (w_str w s))
      | RChar s => pure (Done (w_char w s))
      | RName s => pure (if str_eqb s (lit "self") then Done (w_self w) else read w en st s)
      | RPath l => pure (Done (w_path w l))
      | RArr l => ebnd (eff_map xeval l) (fun vs => pure (Done (w_arr w vs)))
      | RTup l => ebnd (eff_map xeval l) (fun vs => pure (Done (w_tup w vs)))
      | RField e f => ebnd (xeval e) (fun v => pure (Done (w_field w v (unraw f))))
      | RIndex e i => ebnd (xeval e) (fun v => ebnd (xeval i) (fun k => pure (of_opt (w_index w v k))))
      | RRef e | RDeref e | RGrp e => xeval e
      | RUn op e => ebnd (xeval e) (fun v => pure (of_opt (w_un w op v)))
      | RBin op l r => eff_bin op (xeval l) (xeval r)
      | RRange op l r => ebnd (opt l) (fun a => ebnd (opt r) (fun b => pure (of_opt (w_range w op a b))))
      | RCycle e =>
          ebnd (xeval e) (fun v => pure (
            let^ vs := of_opt (w_elems w v) in
            let^ item := read w en st (lit "_loop_item") in
            let^ i := of_opt (w_to_num w (w_field w item (lit "index"))) in
            match vs with [] => Fails | _ => of_opt (nth_error vs (N.to_nat (i mod N.of_nat (length vs)))) end))
      | RCall (RField o f) l => ebnd (xeval o) (fun v => ebnd (args l) (fun vs => of_act (x_method x v (unraw f) vs)))
      | RCall f l => ebnd (xeval f) (fun v => ebnd (args l) (fun vs => of_act (x_call x v vs)))
      | RMacro p s => of_act (x_macro x p s)
      | RTry e => ebnd (xeval e) (fun v => of_act (x_try x v))
      | RFilter true f l => ebnd (args l) (fun vs => pure (of_opt (w_filter w true f vs)))
      | RFilter false f l => ebnd (args l) (fun vs => of_act (x_filter x f vs))
      | RSafe _ (_, _, e) => ebnd (xeval e) (fun v => pure (Done (w_safe w v)))
      | REscape esc (_, _, e) | RMarkup esc e => ebnd (xeval e) (fun v => pure (Done (w_unsafe w esc v)))
      | RFormat fmt l => ebnd (args l) (fun vs => pure (of_opt (w_format w fmt vs)))
      | RJoin l => ebnd (eff_map xeval l) (fun vs => pure (of_opt (w_join w vs)))
      end.

    (** A formatted write: all arguments are evaluated, in their order, before anything is shown. *)
    Definition xformat (fmt : str) (args : list (nat * rexpr)) : eff str :=
      ebnd (eff_map (fun a => ebnd (xeval (snd a)) (fun v => pure (Done (arg_name (fst a), v)))) args) (fun vals =>
      pure (let^ l := of_opt (fmt_parse fmt None) in of_opt (fmt_text w vals l))).
    Definition xparts (p : wparts) : eff str :=
      match p with NoParts => pure (Done []) | LitParts s => pure (Done s) | FmtParts f a => xformat f a end.

    (** ** What is to be written
        The pieces one after the other: each expression is evaluated where it stands, as often as it stands there; then
        everything is shown. *)
    Inductive shown := ShText (s : str) | ShVal (v : V).
    Fixpoint show_all (l : list shown) : option str :=
      match l with
      | [] => Some []
      | ShText s :: l' => let? t := show_all l' in Some (s ++ t)
      | ShVal v :: l' => let? d := w_display w v in let? t := show_all l' in Some (d ++ t)
      end.
    (** A piece: text, or an expression (as generated for it alone). *)
    Definition xpieces (l : list (str + rexpr)) : eff str :=
      ebnd (eff_map (fun p => match p with inl s => pure (Done (ShText s)) | inr r => ebnd (xeval r) (fun v => pure (Done (ShVal v))) end) l)
           (fun vs => pure (of_opt (show_all vs))).
  End Eval.
End Effect.

(** ** Calls in a template expression *)
(** A call of a function or method, a macro or [?], anywhere in it *)
Fixpoint has_call (e : expr) : bool :=
  match e with
  | Call _ _ | RustMacro _ _ | Try _ => true
  | BoolLit _ | NumLit _ | StrLit _ | CharLit _ | Var _ | Path _ | Generated _ => false
  | Arr l | Tuple l | Filter _ l => existsb has_call l
  | Attr e _ | NamedArgument _ e | Unary _ e | Group e => has_call e
  | Index a b | BinOp _ a b => has_call a || has_call b
  | Range _ l r => match l with Some e => has_call e | None => false end || match r with Some e => has_call e | None => false end
  end.
(** The filters that come with askama: askama/src/filters/mod.rs and json.rs (lib.rs:151-180), and the ones that are no
    functions: generator.rs:1252-1261. *)
Definition askama_filter (x : str) : bool :=
  existsb (str_eqb x) [lit "as_ref"; lit "deref"; lit "tojson"] || existsb (str_eqb x) shipped.
Fixpoint has_user_filter (e : expr) : bool :=
  match e with
  | BoolLit _ | NumLit _ | StrLit _ | CharLit _ | Var _ | Path _ | Generated _ | RustMacro _ _ => false
  | Filter x l => negb (askama_filter x) || existsb has_user_filter l
  | Arr l | Tuple l => existsb has_user_filter l
  | Call f l => has_user_filter f || existsb has_user_filter l
  | Attr e _ | NamedArgument _ e | Unary _ e | Group e | Try e => has_user_filter e
  | Index a b | BinOp _ a b => has_user_filter a || has_user_filter b
  | Range _ l r => match l with Some e => has_user_filter e | None => false end || match r with Some e => has_user_filter e | None => false end
  end.
(** A generated expression without calls of any kind *)
Fixpoint quiet (r : rexpr) : bool :=
  let args := forallb (fun a : bool * bool * rexpr => match a with (_, _, e) => quiet e end) in
  match r with
  | RTok _ | RStr _ | RChar _ | RName _ | RPath _ => true
  | RArr l | RTup l | RJoin l => forallb quiet l
  | RField e _ | RRef e | RDeref e | RUn _ e | RGrp e | RCycle e | RMarkup _ e => quiet e
  | RSafe _ (_, _, e) | REscape _ (_, _, e) => quiet e
  | RIndex a b | RBin _ a b => quiet a && quiet b
  | RRange _ a b => match a with Some e => quiet e | None => true end && match b with Some e => quiet e | None => true end
  | RFormat _ l => args l
  | RFilter b _ l => b && args l
  | RCall _ _ | RMacro _ _ | RTry _ => false
  end.
(** No parameter of a macro stands for an expression with a call. *)
Definition quiet_aliases (m : chain) : Prop :=
  forall k meta r, ch_get m k = Some meta -> l_refs meta = Some r -> quiet r = true.
