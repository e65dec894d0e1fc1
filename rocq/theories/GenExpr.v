(** * Model of the code generator for expressions (askama_derive/src/generator.rs, the [visit_*] methods).
    Strings are lists of characters.  The generator writes Rust source text; here it builds the tree of the Rust expression
    it writes ([rexpr]), and [show] prints that tree as the generator does, up to line breaks and indentation inside an
    expression.  The decisions the generator takes by looking at the text are taken on [show]. *)
From Coq Require Import DecimalNat.
From Verif Require Import Base Ws Ast Ident.
Local Open Scope N_scope.

(** ** Rust expressions as they are generated *)
Inductive rexpr :=
| RTok (s : str)                                  (* a bool or number literal *)
| RStr (s : str) | RChar (s : str)                (* the text between the quotes *)
| RName (s : str)                                 (* an identifier *)
| RPath (l : list str)
| RArr (l : list rexpr) | RTup (l : list rexpr)
| RField (e : rexpr) (name : str)
| RIndex (e i : rexpr)                            (* without the [&] the generator puts before it *)
| RRef (e : rexpr) | RDeref (e : rexpr)
| RUn (op : str) (e : rexpr)
| RBin (op : str) (l r : rexpr)
| RRange (op : str) (l r : option rexpr)
| RGrp (e : rexpr)
| RCycle (e : rexpr)                              (* the block expression of loop.cycle *)
| RCall (f : rexpr) (args : list (bool * bool * rexpr))  (* an argument may be in [&( )] and in braces *)
| RMacro (path : list str) (args : str)
| RTry (e : rexpr)
| RFilter (builtin : bool) (name : str) (args : list (bool * bool * rexpr))
| RSafe (escaper : str) (arg : bool * bool * rexpr)
| REscape (escaper : str) (arg : bool * bool * rexpr)
| RFormat (fmt : str) (args : list (bool * bool * rexpr))
| RJoin (args : list rexpr)                       (* with the [&] before every argument *)
| RMarkup (escaper : str) (e : rexpr).            (* MarkupDisplay::new_unsafe(&(e), escaper) *)

(** lib.rs:182-192 with no integration feature *)
Definition CRATE : str := lit "::askama".
Fixpoint join_with (sep : str) (l : list str) : str :=
  match l with [] => [] | [x] => x | x :: l' => x ++ sep ++ join_with sep l' end.
(** generator.rs:1425-1456: one argument *)
Definition show_arg (borrow braces : bool) (s : str) : str :=
  let s := if braces then lit "{" ++ s ++ lit "}" else s in
  if borrow then lit "&(" ++ s ++ lit ")" else s.
(** The text of an expression: generator.rs:1244-1688 and 1117-1123. *)
Fixpoint show (e : rexpr) : str :=
  let show_args l := join_with (lit ", ") (map (fun a => match a with (b, c, e) => show_arg b c (show e) end) l) in
  match e with
  | RTok s | RName s => s
  | RStr s => lit """" ++ s ++ lit """"
  | RChar s => lit "'" ++ s ++ lit "'"
  | RPath l => join_with (lit "::") l
  | RArr l => lit "[" ++ join_with (lit ", ") (map show l) ++ lit "]"
  | RTup l => lit "(" ++ join_with (lit " ") (map (fun e => show e ++ lit ",") l) ++ lit ")"
  | RField e x => show e ++ lit "." ++ x
  | RIndex e i => show e ++ lit "[" ++ show i ++ lit "]"
  | RRef e => lit "&" ++ show e
  | RDeref e => lit "*" ++ show e
  | RUn op e => op ++ show e
  | RBin op l r => show l ++ lit " " ++ op ++ lit " " ++ show r
  | RRange op l r => match l with Some l => show l | None => [] end ++ op ++ match r with Some r => show r | None => [] end
  | RGrp e => lit "(" ++ show e ++ lit ")"
  | RCycle e => lit "({let _cycle = &(" ++ show e ++
                lit ");let _len = _cycle.len();if _len == 0 {return ::core::result::Result::Err(" ++ CRATE ++
                lit "::Error::Fmt(::core::fmt::Error));}_cycle[_loop_item.index % _len]})"
  | RCall f args => show f ++ lit "(" ++ show_args args ++ lit ")"
  | RMacro p args => join_with (lit "::") p ++ lit "!(" ++ args ++ lit ")"
  | RTry e => lit "::core::result::Result::map_err(" ++ show e ++ lit ", |err| " ++ CRATE ++
              lit "::shared::Error::Custom(::core::convert::Into::into(err)))?"
  | RFilter b name args => (if b then CRATE ++ lit "::" else []) ++ lit "filters::" ++ name ++ lit "(" ++ show_args args ++ lit ")?"
  | RSafe esc (b, c, e) => CRATE ++ lit "::filters::safe(" ++ esc ++ lit ", " ++ show_arg b c (show e) ++ lit ")?"
  | REscape esc (b, c, e) => CRATE ++ lit "::filters::escape(" ++ esc ++ lit ", " ++ show_arg b c (show e) ++ lit ")?"
  | RFormat fmt args => lit "::std::format!(""" ++ fmt ++ lit """" ++
                        match args with [] => [] | _ => lit ", " ++ show_args args end ++ lit ")"
  | RJoin args => CRATE ++ lit "::filters::join((" ++
                  match args with
                  | [] => lit "&"
                  | a :: l => show a ++ lit ").into_iter()" ++ concat (map (fun e => lit ", " ++ show e) l)
                  end ++ lit ")?"
  | RMarkup esc e => CRATE ++ lit "::MarkupDisplay::new_unsafe(&(" ++ show e ++ lit "), " ++ esc ++ lit ")"
  end.

(** ** Scopes.  As [Ident.mapchain] (generator.rs:1894-1985), but a reference is kept as a tree instead of text. *)
Record lmeta := { l_refs : option rexpr; l_init : bool }.
Definition m_initialized : lmeta := {| l_refs := None; l_init := true |}.
Definition m_with_ref (r : rexpr) : lmeta := {| l_refs := Some r; l_init := true |}.
Definition m_default : lmeta := {| l_refs := None; l_init := false |}.
Definition lscope := list (str * lmeta).
Fixpoint lscope_get (k : str) (s : lscope) : option lmeta :=
  match s with [] => None | (k', v) :: s' => if str_eqb k k' then Some v else lscope_get k s' end.
Fixpoint lfind (k : str) (ss : list lscope) : option lmeta :=
  match ss with [] => None | s :: ss' => match lscope_get k s with Some v => Some v | None => lfind k ss' end end.
Inductive chain := Chain (parent : option chain) (scopes : list lscope).
(** generator.rs:1940-1945 *)
Fixpoint ch_get (m : chain) (k : str) : option lmeta :=
  match m with
  | Chain p ss => match lfind k ss with
                  | Some v => Some v
                  | None => match p with Some m' => ch_get m' k | None => None end
                  end
  end.
Definition ch_empty : chain := Chain None [[]].                                      (* 1987-1994 *)
Definition ch_with_parent (p : chain) : chain := Chain (Some p) [[]].                (* 1927-1934 *)
Definition ch_insert (m : chain) (k : str) (v : lmeta) : res chain :=                (* 1951-1959 *)
  match m with Chain _ [] => Panic | Chain p (s :: ss) => Ok (Chain p (((k, v) :: s) :: ss)) end.
Definition ch_push (m : chain) : chain := match m with Chain p ss => Chain p ([] :: ss) end.    (* 1968-1970 *)
Definition ch_pop (m : chain) : res chain :=                                         (* 1972-1975 *)
  match m with Chain _ [] | Chain _ [_] => Panic | Chain p (_ :: ss) => Ok (Chain p ss) end.
Definition ch_is_current_empty (m : chain) : bool := match m with Chain _ ([] :: _) => true | _ => false end.  (* 1947-1949 *)
(** generator.rs:1979-1985 *)
Definition ch_resolve (m : chain) (name : str) : option rexpr :=
  let name := normalize_identifier name in
  match ch_get m name with
  | Some meta => Some (match l_refs meta with Some e => e | None => RName name end)
  | None => None
  end.
(** generator.rs:1987-1990 *)
Definition self : rexpr := RName (lit "self").
Definition ch_resolve_or_self (m : chain) (name : str) : rexpr :=
  match ch_resolve m name with Some r => r | None => RField self (normalize_identifier name) end.
(** generator.rs:1656-1664.  [normalize_identifier] is applied to the whole text: only an identifier can be a keyword (see
    [visit_var_text] in ShowFacts.v). *)
Definition normalize_text (e : rexpr) : rexpr :=
  match e with RName s => RName (normalize_identifier s) | e => e end.
Definition visit_var (m : chain) (s : str) : rexpr :=
  if str_eqb s (lit "self") then RName s else normalize_text (ch_resolve_or_self m s).

(** ** Predicates on expressions *)
(** generator.rs:2031-2037 *)
Fixpoint is_attr_self (e : expr) : bool :=
  match e with
  | Attr (Var s) _ => str_eqb s (lit "self")
  | Attr obj _ => is_attr_self obj
  | _ => false
  end.
(** generator.rs:2004-2028 *)
Fixpoint is_copyable_within_op (within_op : bool) (e : expr) : bool :=
  match e with
  | BoolLit _ | NumLit _ | StrLit _ | CharLit _ => true
  | Unary _ e => is_copyable_within_op true e
  | BinOp _ l r => is_copyable_within_op true l && is_copyable_within_op true r
  | Range _ _ _ | Call _ _ | Path _ => true
  | _ => within_op && is_attr_self e
  end.
Definition is_copyable (e : expr) : bool := is_copyable_within_op false e.
(** generator.rs:2042-2072 *)
Fixpoint is_cacheable (e : expr) : bool :=
  match e with
  | BoolLit _ | NumLit _ | StrLit _ | CharLit _ | Var _ | Path _ | Generated _ => true
  | Arr l | Filter _ l | Tuple l => forallb is_cacheable l
  | Attr e _ | Unary _ e | Group e | NamedArgument _ e => is_cacheable e
  | Index a b | BinOp _ a b => is_cacheable a && is_cacheable b
  | Range _ l r => match l with Some l => is_cacheable l | None => true end && match r with Some r => is_cacheable r | None => true end
  | Call _ _ | RustMacro _ _ | Try _ => false
  end.

(** lib.rs:151-180 *)
Definition BUILT_IN_FILTERS : list str :=
  [lit "abs"; lit "capitalize"; lit "center"; lit "e"; lit "escape"; lit "filesizeformat"; lit "fmt";
   lit "format"; lit "indent"; lit "into_f64"; lit "into_isize"; lit "join"; lit "linebreaks";
   lit "linebreaksbr"; lit "paragraphbreaks"; lit "lower"; lit "lowercase"; lit "safe"; lit "title";
   lit "trim"; lit "truncate"; lit "upper"; lit "uppercase"; lit "urlencode"; lit "urlencode_strict";
   lit "wordcount"; lit "json"].

(** ** The visitor *)
(** The parts of [self.input] the generator uses: input.rs:17-29.  [f_json]: the feature serde-json. *)
Record ginput := { f_escaper : str; f_escapers : list (list str * str); f_json : bool; f_ws : handling;
                   f_block : option str; f_path : str }.
(** generator.rs:2129-2133: [true] is [DisplayWrap::Wrapped]. *)
Definition wrap := bool.
Definition var_loop (e : expr) : bool := match e with Var s => str_eqb s (lit "loop") | _ => false end.
Definition loop_item : rexpr := RName (lit "_loop_item").
(** generator.rs:1466-1483 *)
Definition loop_attr (attr : str) : res rexpr :=
  if str_eqb attr (lit "index") then Ok (RGrp (RBin (lit "+") (RField loop_item (lit "index")) (RTok (lit "1"))))
  else if str_eqb attr (lit "index0") then Ok (RField loop_item (lit "index"))
  else if str_eqb attr (lit "first") then Ok (RField loop_item (lit "first"))
  else if str_eqb attr (lit "last") then Ok (RField loop_item (lit "last"))
  else Err (lit "unknown loop variable").
(** generator.rs:1358-1368: the escaper named in the template *)
Definition named_escaper (inp : ginput) (name : str) : res str :=
  match find (fun x => mem_str name (fst x)) (f_escapers inp) with
  | Some (_, esc) => Ok esc
  | None => Err (lit "invalid escaper for escape filter")
  end.
(** generator.rs:1439-1444: a call that is not of a path is put in braces. *)
Definition needs_braces (e : expr) : bool := match e with Call (Path _) _ => false | Call _ _ => true | _ => false end.

Section Visit.
  Variable inp : ginput.
  Variable m : chain.
  (** generator.rs:1188-1218: [visit_expr], with the methods it calls inlined: 1220-1230 (try), 1232-1242 (macro), 1244-1270
      (filter), 1272-1423 (the filters with their own methods), 1425-1456 (arguments), 1458-1486 (attributes), 1488-1500
      (index), 1502-1552 (call), 1554-1654 (operators, groups, tuples, arrays, paths), 1666-1688 (literals). *)
  Fixpoint visit_expr (e : expr) : res (rexpr * wrap) :=
    let sub e := let! (r, _) := visit_expr e in Ok r in
    let subs := fix subs (l : list expr) : res (list rexpr) :=
      match l with [] => Ok [] | e :: l' => let! r := sub e in let! rs := subs l' in Ok (r :: rs) end in
    let arg e := let! r := sub e in Ok (negb (is_copyable e), needs_braces e, r) in
    let visit_args := fix visit_args (l : list expr) : res (list (bool * bool * rexpr)) :=
      match l with [] => Ok [] | e :: l' => let! r := arg e in let! rs := visit_args l' in Ok (r :: rs) end in
    let osub o := match o with None => Ok None | Some e => let! r := sub e in Ok (Some r) end in
    let plain (r : res rexpr) : res (rexpr * wrap) := let! r := r in Ok (r, false) in
    match e with
    | BoolLit s | NumLit s => Ok (RTok s, false)
    | StrLit s => Ok (RStr s, false)
    | CharLit s => Ok (RChar s, false)
    | Var s => Ok (visit_var m s, false)
    | Path l => Ok (RPath l, false)
    | Arr l => plain (let! rs := subs l in Ok (RArr rs))
    | Attr obj name =>
        if var_loop obj then plain (loop_attr name)
        else plain (let! r := sub obj in Ok (RField r (normalize_identifier name)))
    | Index a b => plain (let! r := sub a in let! k := sub b in Ok (RRef (RIndex r k)))
    | Filter name args =>
        if str_eqb name (lit "as_ref") then
          match args with [a] => plain (let! r := sub a in Ok (RRef r)) | _ => Err (lit "unexpected argument(s) in `as_ref` filter") end
        else if str_eqb name (lit "deref") then
          match args with [a] => plain (let! r := sub a in Ok (RDeref r)) | _ => Err (lit "unexpected argument(s) in `deref` filter") end
        else if str_eqb name (lit "escape") || str_eqb name (lit "e") then
          match args with
          | [] => Panic                                                     (* &args[..1] *)
          | [a] => let! r := arg a in Ok (REscape (f_escaper inp) r, true)
          | [a; StrLit x] => let! esc := named_escaper inp x in let! r := arg a in Ok (REscape esc r, true)
          | [a; _] => Err (lit "invalid escaper type for escape filter")
          | _ => Err (lit "only two arguments allowed to escape filter")
          end
        else if str_eqb name (lit "fmt") then
          match args with
          | [a; StrLit fmt] => plain (let! r := arg a in Ok (RFormat fmt [r]))
          | _ => Err (lit "use filter fmt like `value|fmt(""{:?}"")`")
          end
        else if str_eqb name (lit "format") then
          match args with
          | StrLit fmt :: l => plain (let! rs := visit_args l in Ok (RFormat fmt rs))
          | _ => Err (lit "use filter format like `""a={} b={}""|format(a, b)`")
          end
        else if str_eqb name (lit "join") then plain (let! rs := subs args in Ok (RJoin (map RRef rs)))
        else if str_eqb name (lit "json") || str_eqb name (lit "tojson") then
          if negb (f_json inp) then Err (lit "the `json` filter requires the `serde-json` feature to be enabled")
          else match args with
               | [a] => plain (let! r := arg a in Ok (RFilter true (lit "json") [r]))
               | _ => Err (lit "unexpected argument(s) in `json` filter")
               end
        else if str_eqb name (lit "safe") then
          match args with
          | [a] => let! r := arg a in Ok (RSafe (f_escaper inp) r, true)
          | _ => Err (lit "unexpected argument(s) in `safe` filter")
          end
        else plain (let! rs := visit_args args in Ok (RFilter (mem_str name BUILT_IN_FILTERS) name rs))
    | NamedArgument _ e => plain (sub e)
    | Unary op e => plain (let! r := sub e in Ok (RUn op r))
    | BinOp op l r => plain (let! a := sub l in let! b := sub r in Ok (RBin op a b))
    | Range op l r => plain (let! a := osub l in let! b := osub r in Ok (RRange op a b))
    | Group e => plain (let! r := sub e in Ok (RGrp r))
    | Tuple l => plain (let! rs := subs l in Ok (RTup rs))
    | Call f args =>
        match f with
        | Attr (Var x) method =>
            if str_eqb x (lit "loop") then
              if str_eqb method (lit "cycle") then
                match args with
                | [Arr []] => Err (lit "loop.cycle(...) cannot use an empty array")
                | [a] => plain (let! r := sub a in Ok (RCycle r))
                | _ => Err (lit "loop.cycle(...) expects exactly one argument")
                end
              else Err (lit "unknown loop method")
            else plain (let! r := sub f in let! rs := visit_args args in Ok (RCall r rs))
        | Var x =>
            let callee := match ch_resolve m x with
                          | Some r => r
                          | None => RGrp (RRef (RField self (normalize_identifier x)))
                          end in
            plain (let! rs := visit_args args in Ok (RCall callee rs))
        | _ => plain (let! r := sub f in let! rs := visit_args args in Ok (RCall r rs))
        end
    | RustMacro p args => Ok (RMacro p args, false)
    | Try e => plain (let! r := sub e in Ok (RTry r))
    | Generated s => Ok (RName s, false)
    end.
  (** generator.rs:1182-1186 *)
  Definition visit_expr_root (e : expr) : res rexpr := let! (r, _) := visit_expr e in Ok r.
End Visit.

(** ** Targets: generator.rs:1690-1771.  The pattern written is the target with its names normalised; the names enter the
    innermost scope.  [&] before literals at the first level is part of the pattern text only. *)
Fixpoint norm_target (t : target) : target :=
  match t with
  | TName x => TName (if str_eqb x (lit "_") then x else normalize_identifier x)
  | TTuple p l => TTuple p (map norm_target l)
  | TStruct p l => TStruct p (map (fun x => (normalize_identifier (fst x), norm_target (snd x))) l)
  | TOrChain l => TOrChain (map norm_target l)
  | t => t
  end.
Fixpoint target_names (t : target) : list str :=
  match t with
  | TName x => if str_eqb x (lit "_") then [] else [normalize_identifier x]
  | TTuple _ l | TOrChain l => concat (map target_names l)
  | TStruct _ l => concat (map (fun x => target_names (snd x)) l)
  | _ => []
  end.
Fixpoint insert_all (m : chain) (v : lmeta) (ks : list str) : res chain :=
  match ks with [] => Ok m | k :: ks' => let! m' := ch_insert m k v in insert_all m' v ks' end.
Definition visit_target (m : chain) (is_init : bool) (t : target) : res (target * chain) :=
  let! m' := insert_all m (if is_init then m_initialized else m_default) (target_names t) in Ok (norm_target t, m').

(** ** One formatted write *)
(** generator.rs:2155-2160 *)
Inductive writable := WLit (s : str) | WExpr (e : expr) | WGen (r : rexpr) (w : wrap).
(** [format!("{id}")] *)
Fixpoint uint_str (u : Decimal.uint) : str :=
  match u with
  | Decimal.Nil => []
  | Decimal.D0 u => 48 :: uint_str u | Decimal.D1 u => 49 :: uint_str u | Decimal.D2 u => 50 :: uint_str u
  | Decimal.D3 u => 51 :: uint_str u | Decimal.D4 u => 52 :: uint_str u | Decimal.D5 u => 53 :: uint_str u
  | Decimal.D6 u => 54 :: uint_str u | Decimal.D7 u => 55 :: uint_str u | Decimal.D8 u => 56 :: uint_str u
  | Decimal.D9 u => 57 :: uint_str u
  end.
Definition nat_str (n : nat) : str := uint_str (Nat.to_uint n).
Definition arg_name (id : nat) : str := lit "expr" ++ nat_str id.
(** [s.replace('{', "{{").replace('}', "}}")], generator.rs:1069 *)
Definition double_braces (s : str) : str :=
  concat (map (fun c => if c =? 123 then [123; 123] else if c =? 125 then [125; 125] else [c]) s).
(** [str::len], for the size hint *)
Definition char_len (c : N) : N := if c <? 128 then 1 else if c <? 2048 then 2 else if c <? 65536 then 3 else 4.
Definition byte_len (s : str) : N := fold_right N.add 0 (map char_len s).

(** Equality of expressions.  The cache of [prepare_format] is keyed by the text of the expression; here it is keyed by the
    tree.  Different trees with the same text would be one and the same expression to rustc (C18 is about the trees and their
    text). *)
Definition list_eqb {A} (f : A -> A -> bool) : list A -> list A -> bool :=
  fix go (l l' : list A) : bool :=
    match l, l' with [], [] => true | x :: l, x' :: l' => f x x' && go l l' | _, _ => false end.
Definition arg_eqb (f : rexpr -> rexpr -> bool) (a b : bool * bool * rexpr) : bool :=
  match a, b with (p, q, e), (p', q', e') => Bool.eqb p p' && Bool.eqb q q' && f e e' end.
Fixpoint rexpr_eqb (a b : rexpr) {struct a} : bool :=
  match a, b with
  | RTok s, RTok s' | RStr s, RStr s' | RChar s, RChar s' | RName s, RName s' => str_eqb s s'
  | RPath l, RPath l' => list_eqb str_eqb l l'
  | RArr l, RArr l' | RTup l, RTup l' | RJoin l, RJoin l' => list_eqb rexpr_eqb l l'
  | RField e x, RField e' x' => rexpr_eqb e e' && str_eqb x x'
  | RIndex e i, RIndex e' i' => rexpr_eqb e e' && rexpr_eqb i i'
  | RRef e, RRef e' | RDeref e, RDeref e' | RGrp e, RGrp e' | RCycle e, RCycle e' | RTry e, RTry e' => rexpr_eqb e e'
  | RUn o e, RUn o' e' => str_eqb o o' && rexpr_eqb e e'
  | RBin o l r, RBin o' l' r' => str_eqb o o' && rexpr_eqb l l' && rexpr_eqb r r'
  | RRange o l r, RRange o' l' r' =>
      str_eqb o o' &&
      match l, l' with None, None => true | Some x, Some y => rexpr_eqb x y | _, _ => false end &&
      match r, r' with None, None => true | Some x, Some y => rexpr_eqb x y | _, _ => false end
  | RCall f l, RCall f' l' => rexpr_eqb f f' && list_eqb (arg_eqb rexpr_eqb) l l'
  | RMacro p x, RMacro p' x' => list_eqb str_eqb p p' && str_eqb x x'
  | RFilter b x l, RFilter b' x' l' => Bool.eqb b b' && str_eqb x x' && list_eqb (arg_eqb rexpr_eqb) l l'
  | RSafe x a, RSafe x' a' | REscape x a, REscape x' a' => str_eqb x x' && arg_eqb rexpr_eqb a a'
  | RFormat x l, RFormat x' l' => str_eqb x x' && list_eqb (arg_eqb rexpr_eqb) l l'
  | RMarkup x e, RMarkup x' e' => str_eqb x x' && rexpr_eqb e e'
  | _, _ => false
  end.
(** What the loop of [prepare_format] builds (generator.rs:1058-1096): the format string, the named arguments in order, the
    size, the cache from code to argument number and the counter [self.named]. *)
Record fparts := { p_format : str; p_args : list (nat * rexpr); p_size : N; p_cache : list (rexpr * nat); p_named : nat }.
Fixpoint cache_get (k : rexpr) (l : list (rexpr * nat)) : option nat :=
  match l with [] => None | (k', v) :: l' => if rexpr_eqb k k' then Some v else cache_get k l' end.
(** generator.rs:1106-1143: [named_expression] *)
Definition named_expression (inp : ginput) (r : rexpr) (wrapped cacheable : bool) (p : fparts) : fparts :=
  let expression := if wrapped then r else RMarkup (f_escaper inp) r in
  match cache_get expression (p_cache p) with
  | Some id =>
      if cacheable then
        {| p_format := p_format p ++ lit "{" ++ arg_name id ++ lit "}"; p_args := p_args p; p_size := p_size p + 3;
           p_cache := p_cache p; p_named := p_named p |}
      else
        {| p_format := p_format p ++ lit "{" ++ arg_name (p_named p) ++ lit "}"; p_args := p_args p ++ [(p_named p, expression)];
           p_size := p_size p + 3; p_cache := p_cache p; p_named := S (p_named p) |}
  | None =>
      {| p_format := p_format p ++ lit "{" ++ arg_name (p_named p) ++ lit "}"; p_args := p_args p ++ [(p_named p, expression)];
         p_size := p_size p + 3; p_cache := (expression, p_named p) :: p_cache p; p_named := S (p_named p) |}
  end.
Fixpoint format_loop (inp : ginput) (m : chain) (ws : list writable) (p : fparts) : res fparts :=
  match ws with
  | [] => Ok p
  | WLit s :: ws' =>
      format_loop inp m ws' {| p_format := p_format p ++ double_braces s; p_args := p_args p; p_size := p_size p + byte_len s;
                               p_cache := p_cache p; p_named := p_named p |}
  | WExpr e :: ws' =>
      let! (r, wrapped) := visit_expr inp m e in
      format_loop inp m ws' (named_expression inp r wrapped (is_cacheable e) p)
  | WGen r wrapped :: ws' => format_loop inp m ws' (named_expression inp r wrapped false p)
  end.
(** generator.rs:1032-1104: [prepare_format]; the result is the size and what to write: nothing, a string, or a format string
    with arguments.  Indentation is dealt with by the callers. *)
Inductive wparts := NoParts | LitParts (s : str) | FmtParts (fmt : str) (args : list (nat * rexpr)).
Definition all_lits (ws : list writable) : bool := forallb (fun w => match w with WLit _ => true | _ => false end) ws.
Definition lits_text (ws : list writable) : str := concat (map (fun w => match w with WLit s => s | _ => [] end) ws).
Definition prepare_format (inp : ginput) (m : chain) (ws : list writable) (named : nat) : res (N * wparts * nat) :=
  match ws with
  | [] => Ok (0, NoParts, named)
  | _ =>
      if all_lits ws then Ok (byte_len (lits_text ws), LitParts (lits_text ws), named)
      else
        let! p := format_loop inp m ws {| p_format := []; p_args := []; p_size := 0; p_cache := []; p_named := named |} in
        Ok (p_size p, FmtParts (p_format p) (p_args p), p_named p)
  end.
