(** * Model of the expression parser, askama_parser/src/expr.rs. *)
From Verif Require Import Base Nom Ws Ast Lex.
Local Open Scope N_scope.

(** The parsing functions of expr.rs, each of which starts with [level.nest(i)?]. *)
Inductive nt :=
| NtParse | NtOr | NtAnd | NtCompare | NtBor | NtBxor | NtBand | NtShifts | NtAddsub | NtMuldivmod
| NtFiltered | NtPrefix | NtSuffix | NtSingle | NtGroup | NtArray | NtIndex
| NtCall | NtArguments (is_template_macro : bool) | NtNamed.
Definition nt_res (n : nt) : Type :=
  match n with NtCall | NtArguments _ => list expr | NtNamed => str * expr | _ => expr end.

(** expr.rs:19-52: the body of [expr_prec_layer!]. *)
Definition layer (ops : P str) (inner : P expr) : P expr :=
  left <- inner ;;
  (right <- many0 (op <- pws ops ;; (r <- inner ;; pret (op, r))) ;;
   pret (fold_left (fun l '(op, r) => BinOp op l r) right left)).

(** expr.rs:348-392: [nested_parenthesis]: the loop over the characters; the nesting left at the end and, if the loop was
    left with [break], the position.  [nested] is an i32 in the code. *)
Fixpoint np_scan (nested : N) (in_str escaped : bool) (i : str) : N * option str :=
  match i with
  | [] => (nested, None)
  | c :: i' =>
      let esc' (e : bool) := if e && negb (c =? 92) then false else e in
      if negb ((c =? 40) || (c =? 41)) || negb in_str then
        if c =? 40 then np_scan (nested + 1) in_str (esc' escaped) i'
        else if c =? 41 then if nested =? 0 then (nested, Some i) else np_scan (nested - 1) in_str (esc' escaped) i'
        else if c =? 34 then np_scan nested (if in_str then escaped else true) (esc' escaped) i'
        else if c =? 92 then np_scan nested in_str (esc' (negb escaped)) i'
        else np_scan nested in_str (esc' escaped) i'
      else np_scan nested in_str (esc' escaped) i'
  end.
Definition nested_parenthesis : P unit := fun i =>
  match np_scan 0 false false i with
  | (n, stop) => if n =? 0 then POk (match stop with Some r => r | None => i end) tt else PErr i None
  end.

(** expr.rs:316-324 *)
Inductive suffix_kind := SAttr (s : str) | SIndex (e : expr) | SCall (l : list expr) | SMacroCall (s : str) | STry.
(** expr.rs:394-400, 403-411, 430-432 *)
Definition suffix_macro : P suffix_kind :=
  (pws (pchar 33) ;;; pchar 40) ;;; cut (a <- pmap SMacroCall (recognize nested_parenthesis) ;; (pchar 41 ;;; pret a)).
Definition suffix_attr : P suffix_kind :=
  pmap SAttr (pws (pchar 46 ;;; pnot (pchar 46)) ;;; cut (num_lit <|> identifier)).
Definition suffix_try : P suffix_kind := value STry (skip_blanks ;;; pchar 63).
(** expr.rs:326-351: the loop of [Suffix::parse]; every suffix consumes at least one character, so the input bounds the
    number of iterations. *)
Fixpoint suffix_loop (n : nat) (suf : P suffix_kind) (e : expr) (i : str) : pres expr :=
  match n with
  | O => PStuck
  | S n' =>
      match opt suf i with
      | POk j (Some (SAttr a)) => suffix_loop n' suf (Attr e a) j
      | POk j (Some (SIndex x)) => suffix_loop n' suf (Index e x) j
      | POk j (Some (SCall args)) => suffix_loop n' suf (Call e args) j
      | POk j (Some STry) => suffix_loop n' suf (Try e) j
      | POk j (Some (SMacroCall args)) =>
          match e with
          | Path p => suffix_loop n' suf (RustMacro p args) j
          | Var v => suffix_loop n' suf (RustMacro [v] args) j
          | _ => PFail i None
          end
      | POk _ None => POk i e
      | PErr e m => PErr e m
      | PFail e m => PFail e m
      | PStuck => PStuck
      end
  end.

Definition nonempty {A} (l : list A) : bool := match l with [] => false | _ => true end.
Definition is_named (e : expr) : bool := match e with NamedArgument _ _ => true | _ => false end.
(** expr.rs:91-121: one argument; [names] is the set of names seen so far, [start] the position of the argument list. *)
Definition argument (named : P (str * expr)) (parse : P expr) (start : str) (names : list str) : P (list str * expr) := fun i =>
  match named i with
  | POk j (n, v) =>
      if mem_str n names then PFail start (Some (lit "named argument `" ++ n ++ lit "` was passed more than once"))
      else POk j (n :: names, NamedArgument n v)
  | PErr _ _ =>
      match parse i with
      | POk j e => if nonempty names && negb (is_named e) then PFail start (Some (lit "named arguments must always be passed last"))
                   else POk j (names, e)
      | PErr e m => PErr e m | PFail e m => PFail e m | PStuck => PStuck
      end
  | PFail e m => PFail e m
  | PStuck => PStuck
  end.

(** lib.rs:639-647: [filter]; [args] is [|i| Expr::arguments(i, level, false)]. *)
Definition filter (args : P (list expr)) : P (str * option (list expr)) :=
  pchar 124 ;;; (fname <- pws identifier ;; (a <- opt args ;; pret (fname, a))).
Definition apply_filter (obj : expr) (f : str * option (list expr)) : expr :=
  Filter (fst f) (obj :: match snd f with Some l => l | None => [] end).

Section Expr.
  Variable is_lowercase : N -> bool.

  (** expr.rs:278-285 *)
  Definition path_var_bool : P expr :=
    pmap (fun v => match v with
                   | inl p => Path p
                   | inr s => if str_eqb s (lit "true") || str_eqb s (lit "false") then BoolLit s else Var s
                   end) (path_or_identifier is_lowercase).

  (** All functions of expr.rs.  [r] is the number of levels left, [MAX_DEPTH - level] (lib.rs:616-634). *)
  Fixpoint pe (r : nat) (n : nt) {struct r} : P (nt_res n) :=
    match r with
    | O => fun i => PFail i None                                             (* nest fails: TooLarge *)
    | S r =>
        match n as n return P (nt_res n) with
        | NtParse =>                                                         (* 153-174 *)
            let range_right := op <- pws (tag (lit "..=") <|> tag (lit "..")) ;; (e <- opt (pe r NtOr) ;; pret (op, e)) in
            pmap (fun '(op, e) => Range op None e) range_right <|>
            (left <- pe r NtOr ;;
             (right <- opt range_right ;;
              pret (match right with Some (op, e) => Range op (Some left) e | None => left end)))
        | NtOr => layer (tag (lit "||")) (pe r NtAnd)                         (* 176-184 *)
        | NtAnd => layer (tag (lit "&&")) (pe r NtCompare)
        | NtCompare => layer (tag (lit "==") <|> tag (lit "!=") <|> tag (lit ">=") <|> tag (lit ">") <|> tag (lit "<=") <|> tag (lit "<"))
                             (pe r NtBor)
        | NtBor => layer (tag (lit "|")) (pe r NtBxor)
        | NtBxor => layer (tag (lit "^")) (pe r NtBand)
        | NtBand => layer (tag (lit "&")) (pe r NtShifts)
        | NtShifts => layer (tag (lit ">>") <|> tag (lit "<<")) (pe r NtAddsub)
        | NtAddsub => layer (tag (lit "+") <|> tag (lit "-")) (pe r NtMuldivmod)
        | NtMuldivmod => layer (tag (lit "*") <|> tag (lit "/") <|> tag (lit "%")) (pe r NtFiltered)
        | NtFiltered =>                                                      (* 186-204 *)
            obj <- pe r NtPrefix ;;
            (filters <- many0 (filter (pe r (NtArguments false))) ;; pret (fold_left apply_filter filters obj))
        | NtPrefix =>                                                        (* 206-221; [S r] levels are left for the operators *)
            ops <- many0 (pws (tag (lit "!") <|> tag (lit "-"))) ;;
            (e <- pe r NtSuffix ;;
             fun i => if Nat.ltb (S r) (length ops) then PFail i None
                      else POk i (fold_right Unary e ops))
        | NtSuffix =>                                                        (* 326-351 *)
            e <- pe r NtSingle ;;
            fun i => suffix_loop (S (length i))
                       (suffix_attr <|> pmap SIndex (pe r NtIndex) <|> pmap SCall (pe r NtCall) <|> suffix_try <|> suffix_macro) e i
        | NtSingle =>                                                        (* 223-233, 287-297 *)
            pmap NumLit num_lit <|> pmap StrLit str_lit <|> pmap CharLit char_lit <|> path_var_bool <|> pe r NtArray <|> pe r NtGroup
        | NtGroup =>                                                         (* 235-262 *)
            e <- (pws (pchar 40) ;;; opt (pe r NtParse)) ;;
            match e with
            | None => pchar 41 ;;; pret (Tuple [])
            | Some e =>
                comma <- pws (opt (peek (pchar 44))) ;;
                match comma with
                | None => pchar 41 ;;; pret (Group e)
                | Some _ => es <- many0 (pchar 44 ;;; pws (pe r NtParse)) ;;
                            (pws (opt (pchar 44)) ;;; (pchar 41 ;;; pret (Tuple (e :: es))))
                end
            end
        | NtArray =>                                                         (* 264-276 *)
            pws (pchar 91) ;;;
            cut (l <- separated_list0 (pchar 44) (pws (pe r NtParse)) ;; (opt (pws (pchar 44)) ;;; (pchar 93 ;;; pret (Arr l))))
        | NtIndex =>                                                         (* 413-422 *)
            pws (pchar 91) ;;; cut (e <- pws (pe r NtParse) ;; (pchar 93 ;;; pret e))
        | NtCall => pe r (NtArguments false)                                 (* 424-427 *)
        | NtArguments is_template_macro =>                                   (* 80-125 *)
            fun start =>
            (pws (pchar 40) ;;;
             cut (l <- separated_list0_st (pchar 44)
                         (fun names => pws (argument (if is_template_macro then pe r NtNamed else perr) (pe r NtParse) start names)) [] ;;
                  (opt (pws (pchar 44)) ;;; (pchar 41 ;;; pret l)))) start
        | NtNamed =>                                                         (* 127-151, without the set of names *)
            n <- identifier ;; (pws (pchar 61) ;;; (v <- pe r NtParse ;; pret (n, v)))
        end
    end.

  (** [Expr::parse(i, level)] and [Expr::arguments(i, level, b)] as called from node.rs. *)
  Definition expr_parse (level : nat) : P expr := pe (MAX_DEPTH - level) NtParse.
  Definition expr_arguments (level : nat) (b : bool) : P (list expr) := pe (MAX_DEPTH - level) (NtArguments b).
End Expr.
