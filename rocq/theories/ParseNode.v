(** * Model of the template parser, askama_parser/src/node.rs and [Ast::from_str] of lib.rs. *)
From Verif Require Import Base Config Nom Ws Ast Lex ParseExpr.
Local Open Scope N_scope.

(** node.rs:428-436: [Whitespace::parse], always used under [opt]. *)
Definition whitespace : P handling :=
  value Preserve (pchar 43) <|> value Suppress (pchar 45) <|> value Minimize (pchar 126).
Definition ows : P (option handling) := opt whitespace.

(** lib.rs:556-559 (with 622-633): [State::nest] and [State::leave]; the level is a u8, so leaving level 0 panics. *)
Definition st_nest : M unit := fun s i =>
  if Nat.leb MAX_DEPTH (level s) then (PFail i None, s) else (POk i tt, {| level := S (level s); loop_depth := loop_depth s |}).
Definition st_leave {A} (r : pres A * pstate) : pres A * pstate :=
  match level (snd r) with
  | O => (PStuck, snd r)
  | S l => (fst r, {| level := l; loop_depth := loop_depth (snd r) |})
  end.
(** lib.rs:581-587: [enter_loop] and [leave_loop] around a parser (node.rs:451-456). *)
Definition in_loop {A} (p : M A) : M A := fun s i =>
  let (r, s') := p {| level := level s; loop_depth := S (loop_depth s) |} i in
  match loop_depth s' with
  | O => (PStuck, s')
  | S n => (r, {| level := level s'; loop_depth := n |})
  end.

(** node.rs:286-293 *)
Definition target_lit : P target :=
  pmap TStrLit str_lit <|> pmap TCharLit char_lit <|> pmap TNumLit num_lit <|> pmap TBoolLit bool_lit.
(** node.rs:310-319: [verify_name] *)
Definition verify_name (input name : str) : P target := fun i =>
  if str_eqb name (lit "self") || str_eqb name (lit "writer") then PFail input (Some (lit "cannot use `" ++ name ++ lit "` as a name"))
  else POk i (TName name).
Definition is_some {A} (o : option A) : bool := match o with Some _ => true | None => false end.
Definition opt_char (c : N) : P bool := pmap is_some (opt (pws (pchar c))).
Definition or_chain (l : list target) : target := match l with [t] => t | _ => TOrChain l end.
(** node.rs:295-308: [named] *)
Definition target_named (parse : M target) : M (str * target) := fun s init =>
  (src <-- lift identifier ;;
   (t <-- mopt (lift (pws (pchar 58)) ;;-- parse) ;;
    match t with
    | Some t => mret (src, t)
    | None => lift (pmap (fun t => (src, t)) (verify_name init src))
    end)) s init.

(** A trivially true state-free test of [map_res(path_or_identifier, ..)] under [opt] (node.rs:240-249): a plain identifier
    is an Error, so nothing is consumed. *)
Definition opt_path (is_lowercase : N -> bool) : P (option (list str)) := fun i =>
  match path_or_identifier is_lowercase i with
  | POk r (inl p) => POk r (Some p)
  | POk _ (inr _) | PErr _ _ => POk i None
  | PFail e m => PFail e m
  | PStuck => PStuck
  end.

Section Target.
  Variable is_lowercase : N -> bool.

  (** node.rs:190-284: [parse_one]; [parse] is the recursive [Target::parse]. *)
  Definition target_parse_one (parse : M target) : M target :=
    l <-- lift (opt target_lit) ;;
    match l with
    | Some l => mret l
    | None =>
        is_tuple <-- lift (opt_char 40) ;;
        if is_tuple : bool then
          is_empty <-- lift (opt_char 41) ;;
          if is_empty : bool then mret (TTuple [] [])
          else
            first <-- parse ;;
            (unused <-- lift (opt_char 41) ;;
             if unused : bool then mret first
             else
               mcut (rest <-- mmany0 (lift (pws (pchar 44)) ;;-- parse) ;;
                     (lift (opt (pws (pchar 44))) ;;-- (lift (pws (cut (pchar 41))) ;;-- mret (TTuple [] (first :: rest))))))
        else
          path <-- lift (opt_path is_lowercase) ;;
          match path with
          | Some path => fun s before_with =>
              (lift (opt (pws (keyword (lit "with")))) ;;--
               (unnamed <-- lift (opt_char 40) ;;
                if unnamed : bool then
                  lift (pmap (fun _ => TTuple path []) (pchar 41)) <||>
                  (l <-- mcut (mseparated_list1 (pws (pchar 44)) parse) ;;
                   (lift (opt (pws (pchar 44))) ;;-- (lift (pws (cut (pchar 41))) ;;-- mret (TTuple path l))))
                else
                  named <-- lift (opt_char 123) ;;
                  if named : bool then
                    lift (pmap (fun _ => TStruct path []) (pchar 125)) <||>
                    (l <-- mcut (mseparated_list1 (pws (pchar 44)) (target_named parse)) ;;
                     (lift (opt (pws (pchar 44))) ;;-- (lift (pws (cut (pchar 125))) ;;-- mret (TStruct path l))))
                  else fun s _ => (POk before_with (TPath path), s))) s before_with
          | None => fun s i => (name <-- lift identifier ;; lift (verify_name i name)) s i
          end
    end.

  (** node.rs:174-188: [Target::parse].  Each recursion has passed one [nest]; [d] bounds the depth (128 levels suffice,
      [target_level]).  If [parse_one] fails, [leave] is not called (the [?] on line 178). *)
  Fixpoint target_parse (d : nat) : M target :=
    mmap or_chain
      (mseparated_list1 (pws (tag (lit "or")))
        (fun s i =>
           match st_nest s i with
           | (POk _ _, s1) =>
               match (match d with O => fun s _ => (PStuck, s) | S d' => target_parse_one (target_parse d') end) s1 i with
               | (POk r t, s2) => st_leave (POk r t, s2)
               | x => x
               end
           | (PErr e m, s1) => (PErr e m, s1) | (PFail e m, s1) => (PFail e m, s1) | (PStuck, s1) => (PStuck, s1)
           end)).
End Target.

(** node.rs:817-836: [check_end_name] *)
Definition check_end_name (before : str) (name end_name kind : str) : P str := fun after =>
  if str_eqb name end_name then POk after end_name
  else PFail before (Some (match name, end_name with
    | [], _ :: _ => lit "unexpected name `" ++ end_name ++ lit "` in `end" ++ kind ++ lit "` tag for unnamed `" ++ kind ++ lit "`"
    | _, _ => lit "expected name `" ++ name ++ lit "` in `end" ++ kind ++ lit "` tag, found `" ++ end_name ++ lit "`"
    end)).
Definition end_name (name kind : str) : P str := fun before =>
  (n <- pws identifier ;; check_end_name before name n kind) before.

Section Node.
  Variable is_lowercase : N -> bool.
  (** [format!("{:?}", s)] for a str. *)
  Variable debug_str : str -> str.
  Variable sy : syntax.

  Definition block_start_ : P str := tag (block_start sy).
  Definition block_end_ : P str := tag (block_end sy).

  Definition tparse : M target := target_parse is_lowercase MAX_DEPTH.
  Definition eparse : M expr := with_level (expr_parse is_lowercase).
  Definition eargs (b : bool) : M (list expr) := with_level (fun l => expr_arguments is_lowercase l b).

  (** lib.rs:191-193 *)
  Definition unclosed (kind tag : str) : str := lit "unclosed " ++ kind ++ lit ", missing " ++ debug_str tag.

  (** node.rs:845-865: [Lit::parse].  [opt(recognize(skip_till(..)))] cannot fail. *)
  Definition lit_parse : P literal := fun i =>
    match i with
    | [] => PErr i None
    | _ =>
        match skip_till (tag (block_start sy) <|> tag (comment_start sy) <|> tag (expr_start sy)) i with
        | POk r _ => match before i r with [] => PErr r None | c => POk r (split_ws_parts c) end
        | PErr _ _ => POk [] (split_ws_parts i)
        | PFail e m => PFail e m
        | PStuck => PStuck
        end
    end.

  (** node.rs:1045-1112: [Comment::parse].  [comment_content]: the position after the comment end that closes the comment.
      The number of tags is bounded by the length of the input ([n]); [depth] is a usize and cannot overflow. *)
  Definition comment_tag : P bool := value true (tag (comment_start sy)) <|> value false (tag (comment_end sy)).
  Fixpoint comment_content (n : nat) (depth : nat) (i : str) : pres unit :=
    match n with
    | O => PStuck
    | S n' =>
        match skip_till comment_tag i with
        | PErr _ _ => PFail i (Some (unclosed (lit "comment") (comment_end sy)))
        | POk _ (j, true) => comment_content n' (S depth) j
        | POk _ (j, false) => match depth with O => POk j tt | S d => comment_content n' d j end
        | PFail e m => PFail e m
        | PStuck => PStuck
        end
    end.
  Definition strip_suffix (suf s : str) : option str :=
    match strip_prefix (rev suf) (rev s) with Some r => Some (rev r) | None => None end.
  Definition comment_nws (content : str) : option handling :=
    match strip_suffix (comment_end sy) content with
    | Some c => match last_opt c with
                | Some x => if x =? 45 then Some Suppress else if x =? 43 then Some Preserve else if x =? 126 then Some Minimize else None
                | None => None
                end
    | None => None
    end.
  Definition comment_parse : P (ws * str) :=
    w <- (tag (comment_start sy) ;;; ows) ;;
    (content <- recognize (cut (fun i => comment_content (S (length i)) 0 i)) ;;
     pret ({| ws_l := w; ws_r := comment_nws content |}, content)).

  (** node.rs:139-160: [Node::expr] *)
  Definition expr_node : M node :=
    '(w, e) <-- (lift (tag (expr_start sy)) ;;-- mcut (w <-- lift ows ;; (e <-- mws eparse ;; mret (w, e)))) ;;
    ('(w2, closed) <-- lift (cut (w2 <- ows ;; (c <- (value true (tag (expr_end sy)) <|> value false (pws eof)) ;; pret (w2, c)))) ;;
     if closed : bool then mret (NExpr {| ws_l := w; ws_r := w2 |} e)
     else lift (fun i => PFail i (Some (unclosed (lit "expression") (expr_end sy))))).

  (** node.rs:107-137: [break] and [continue] *)
  Definition brk (kw : str) (mk : ws -> node) : M node := fun s i =>
    match (w1 <- ows ;; (pws (keyword kw) ;;; (w2 <- ows ;; pret {| ws_l := w1; ws_r := w2 |}))) i with
    | POk j w => match loop_depth s with
                 | O => (PFail i (Some (lit "you can only `" ++ kw ++ lit "` inside a `for` loop")), s)
                 | S _ => (POk j (mk w), s)
                 end
    | PErr e m => (PErr e m, s) | PFail e m => (PFail e m, s) | PStuck => (PStuck, s)
    end.

  (** node.rs:691-722 *)
  Definition call_parse : M node :=
    w1 <-- lift ows ;;
    (lift (pws (keyword (lit "call"))) ;;--
     mcut (scope <-- lift (opt (n <- pws identifier ;; (pws (tag (lit "::")) ;;; pret n))) ;;
           (name <-- lift (pws identifier) ;;
            (args <-- mopt (mws (eargs true)) ;;
             (w2 <-- lift ows ;;
              mret (NCall {| ws_l := w1; ws_r := w2 |} scope name (match args with Some l => l | None => [] end))))))).
  (** node.rs:919-944 *)
  Definition let_set : P str := keyword (lit "let") <|> keyword (lit "set").
  Definition let_parse : M node :=
    w1 <-- lift ows ;;
    (lift (pws let_set) ;;--
     mcut (var <-- mws tparse ;;
           (val <-- mopt (lift (pws (pchar 61)) ;;-- mws eparse) ;;
            (w2 <-- lift ows ;; mret (NLet {| ws_l := w1; ws_r := w2 |} var val))))).
  (** node.rs:408-419: [CondTest::parse_cond] and [CondTest::parse] *)
  Definition parse_cond : M cond_test :=
    t <-- mopt (lift (pws let_set) ;;-- (t <-- mws tparse ;; (lift (pws (pchar 61)) ;;-- mret t))) ;;
    (e <-- mws eparse ;; mret {| ct_target := t; ct_expr := e |}).
  Definition cond_test_parse : M cond_test := lift (pws (keyword (lit "if"))) ;;-- mcut parse_cond.
  (** node.rs:1020-1038 *)
  Definition extends_parse : P node := fun start =>
    (w1 <- ows ;; (pws (keyword (lit "extends")) ;;;
      ('(p, w2) <- cut (p <- pws str_lit ;; (w2 <- ows ;; pret (p, w2))) ;;
       match w1, w2 with
       | None, None => pret (NExtends p)
       | _, _ => fun _ => PFail start (Some (lit "whitespace control is not allowed on `extends`"))
       end))) start.
  (** node.rs:997-1013 *)
  Definition include_parse : P node :=
    w1 <- ows ;; (pws (keyword (lit "include")) ;;;
      cut (p <- pws str_lit ;; (w2 <- ows ;; pret (NInclude {| ws_l := w1; ws_r := w2 |} p)))).
  (** node.rs:660-682 *)
  Definition import_parse : P node :=
    w1 <- ows ;; (pws (keyword (lit "import")) ;;;
      cut (p <- pws str_lit ;; (pws (keyword (lit "as")) ;;;
        cut (sc <- pws identifier ;; (w2 <- ows ;; pret (NImport {| ws_l := w1; ws_r := w2 |} p sc)))))).
  (** node.rs:884-910: [Raw::parse] *)
  Definition endraw : P (option handling * option handling) :=
    block_start_ ;;; (w1 <- ows ;; (pws (keyword (lit "endraw")) ;;; (w2 <- ows ;; (peek block_end_ ;;; pret (w1, w2))))).
  Definition raw_parse : P node :=
    w1 <- ows ;; (pws (keyword (lit "raw")) ;;;
      cut (w2 <- ows ;; (block_end_ ;;;
        ('(contents, (j, (w3, w4))) <- consumed (skip_till endraw) ;;
         fun _ => POk j (NRaw {| ws_l := w1; ws_r := w2 |} (split_ws_parts contents) {| ws_l := w3; ws_r := w4 |}))))).
  (** node.rs:542-548 *)
  Definition macro_parameters : P (list str) :=
    pws (pchar 40) ;;; (l <- separated_list0 (pchar 44) (pws identifier) ;; (opt (pws (pchar 44)) ;;; (pchar 41 ;;; pret l))).

  (** The parsers with a body; [many] is the recursive [Node::many]. *)
  Section Body.
    Variable many : M (list node).

    (** node.rs:316-335 and 338-360: [When::match] and [When::when] *)
    Definition when_else : M when_ :=
      lift block_start_ ;;-- (w1 <-- lift ows ;; (lift (pws (keyword (lit "else"))) ;;--
        mcut (w2 <-- lift ows ;; (lift block_end_ ;;-- (ns <-- mcut many ;;
          mret (When {| ws_l := w1; ws_r := w2 |} (TName (lit "_")) ns)))))).
    Definition when_when : M when_ :=
      lift block_start_ ;;-- (w1 <-- lift ows ;; (lift (pws (keyword (lit "when"))) ;;--
        mcut (t <-- mws tparse ;; (w2 <-- lift ows ;; (lift block_end_ ;;-- (ns <-- mcut many ;;
          mret (When {| ws_l := w1; ws_r := w2 |} t ns))))))).
    (** node.rs:370-395: [Cond::parse] *)
    Definition cond_parse : M cond :=
      lift block_start_ ;;-- (w1 <-- lift ows ;;
        (c <-- ((lift (pws (keyword (lit "else"))) ;;-- mopt cond_test_parse) <||>
                (lift (pws (keyword (lit "elif"))) ;;-- mcut (mmap Some parse_cond))) ;;
         (w2 <-- lift ows ;; (lift (cut block_end_) ;;-- (ns <-- mcut many ;;
           mret (Cond {| ws_l := w1; ws_r := w2 |} c ns)))))).
    (** node.rs:952-989 *)
    Definition if_parse : M node :=
      w1 <-- lift ows ;; (c <-- cond_test_parse ;;
        mcut (w2 <-- lift ows ;; (lift block_end_ ;;--
          mcut (ns <-- many ;; (elifs <-- mmany0 cond_parse ;;
            mcut (lift block_start_ ;;-- (w3 <-- lift ows ;; (lift (pws (keyword (lit "endif"))) ;;-- (w4 <-- lift ows ;;
              mret (NIf {| ws_l := w3; ws_r := w4 |} (Cond {| ws_l := w1; ws_r := w2 |} (Some c) ns :: elifs))))))))))).
    (** node.rs:450-529: [Loop::parse] *)
    Definition else_block : M (option handling * list node * option handling) :=
      lift (pws (keyword (lit "else"))) ;;--
      mcut (w1 <-- lift ows ;; (lift block_end_ ;;-- (ns <-- many ;; (lift block_start_ ;;-- (w2 <-- lift ows ;; mret (w1, ns, w2)))))).
    Definition loop_parse : M node :=
      w1 <-- lift ows ;; (lift (pws (keyword (lit "for"))) ;;--
        mcut (var <-- mws tparse ;; (lift (pws (keyword (lit "in"))) ;;--
          mcut (iter <-- mws eparse ;;
            (c <-- mopt (lift (pws (keyword (lit "if"))) ;;-- mcut (mws eparse)) ;;
             (w2 <-- lift ows ;; (lift block_end_ ;;--
               mcut (body <-- in_loop many ;;
                 mcut (lift block_start_ ;;-- (w3 <-- lift ows ;; (els <-- mopt else_block ;;
                   (lift (pws (keyword (lit "endfor"))) ;;-- (w4 <-- lift ows ;;
                     let '(w5, ns, w6) := match els with Some x => x | None => (None, [], None) end in
                     mret (NLoop {| ws_l := w1; ws_r := w2 |} var iter c body {| ws_l := w3; ws_r := w5 |} ns
                                 {| ws_l := w6; ws_r := w4 |})))))))))))))).
    (** node.rs:533-596: [Macro::parse] *)
    Definition macro_parse : M node := fun s i =>
      ('(w1, name, params, w2) <--
         lift (w1 <- ows ;; (pws (keyword (lit "macro")) ;;;
                cut (name <- pws identifier ;; (params <- opt (pws macro_parameters) ;; (w2 <- ows ;; (block_end_ ;;;
                     pret (w1, name, params, w2))))))) ;;
       if str_eqb name (lit "super") then fun s _ => (PFail i (Some (lit "'super' is not a valid name for a macro")), s)
       else
         mcut (ns <-- many ;;
           mcut (lift block_start_ ;;-- (w3 <-- lift ows ;; (lift (pws (keyword (lit "endmacro"))) ;;--
             mcut (lift (opt (end_name name (lit "macro"))) ;;-- (w4 <-- lift ows ;;
               mret (NMacro {| ws_l := w1; ws_r := w2 |} name (match params with Some l => l | None => [] end) ns
                            {| ws_l := w3; ws_r := w4 |})))))))) s i.
    (** node.rs:599-650: [FilterBlock::parse] *)
    Definition filter_block_parse : M node :=
      w1 <-- lift ows ;; (lift (pws (keyword (lit "filter"))) ;;--
        ('(name, params, extra, w2) <--
           mcut (name <-- lift (pws identifier) ;; (params <-- mopt (eargs false) ;;
             (extra <-- with_level (fun l => many0 (filter (expr_arguments is_lowercase l false))) ;;
               (lift (pws (pret tt)) ;;-- (w2 <-- lift ows ;; (lift block_end_ ;;-- mret (name, params, extra, w2))))))) ;;
         (let '(fname, fargs) :=
            fold_left (fun '(n, a) '(n2, a2) => (n2, Filter n a :: match a2 with Some l => l | None => [] end)) extra
              (name, match params with Some l => l | None => [] end) in
          mcut (ns <-- many ;;
            mcut (lift block_start_ ;;-- (w3 <-- lift ows ;; (lift (pws (keyword (lit "endfilter"))) ;;-- (w4 <-- lift ows ;;
              mret (NFilterBlock {| ws_l := w1; ws_r := w2 |} fname fargs ns {| ws_l := w3; ws_r := w4 |}))))))))).
    (** node.rs:726-768: [Match::parse] *)
    Definition match_parse : M node :=
      w1 <-- lift ows ;; (lift (pws (keyword (lit "match"))) ;;--
        mcut (e <-- mws eparse ;; (w2 <-- lift ows ;; (lift block_end_ ;;--
          mcut (lift (pws (many0 (pws (value tt comment_parse)))) ;;--
            (arms <-- mmany1 when_when ;;
              mcut (els <-- mopt when_else ;;
                mcut (lift (pws block_start_) ;;-- (w3 <-- lift ows ;; (lift (pws (keyword (lit "endmatch"))) ;;-- (w4 <-- lift ows ;;
                  mret (NMatch {| ws_l := w1; ws_r := w2 |} e (arms ++ match els with Some a => [a] | None => [] end)
                               {| ws_l := w3; ws_r := w4 |})))))))))))).
    (** node.rs:777-815: [BlockDef::parse] *)
    Definition blockdef_parse : M node :=
      w1 <-- lift ows ;; (lift (pws (keyword (lit "block"))) ;;--
        ('(name, w2) <-- mcut (lift (name <- pws identifier ;; (w2 <- ows ;; (block_end_ ;;; pret (name, w2))))) ;;
         mcut (ns <-- many ;;
           mcut (lift block_start_ ;;-- (w3 <-- lift ows ;; (lift (pws (keyword (lit "endblock"))) ;;--
             mcut (lift (opt (end_name name (lit "block"))) ;;-- (w4 <-- lift ows ;;
               mret (NBlockDef {| ws_l := w1; ws_r := w2 |} name ns {| ws_l := w3; ws_r := w4 |}))))))))).

    (** node.rs:68-91: the parser for each block keyword *)
    Definition block_kind (t : str) : option (M node) :=
      if str_eqb t (lit "call") then Some call_parse
      else if str_eqb t (lit "let") || str_eqb t (lit "set") then Some let_parse
      else if str_eqb t (lit "if") then Some if_parse
      else if str_eqb t (lit "for") then Some loop_parse
      else if str_eqb t (lit "match") then Some match_parse
      else if str_eqb t (lit "extends") then Some (lift extends_parse)
      else if str_eqb t (lit "include") then Some (lift include_parse)
      else if str_eqb t (lit "import") then Some (lift import_parse)
      else if str_eqb t (lit "block") then Some blockdef_parse
      else if str_eqb t (lit "macro") then Some macro_parse
      else if str_eqb t (lit "raw") then Some (lift raw_parse)
      else if str_eqb t (lit "break") then Some (brk (lit "break") NBreak)
      else if str_eqb t (lit "continue") then Some (brk (lit "continue") NContinue)
      else if str_eqb t (lit "filter") then Some filter_block_parse
      else None.
  End Body.

  (** node.rs:61-67 *)
  Definition block_tag : P str :=
    block_start_ ;;; peek ((ows ;;; skip_blanks) ;;; identifier).
  (** node.rs:98-104 *)
  Definition block_close (n : node) : P node :=
    closed <- cut (value true block_end_ <|> value false (pws eof)) ;;
    if closed : bool then pret n else fun i => PFail i (Some (unclosed (lit "block") (block_end sy))).

  (** node.rs:52-105: [Node::parse] and 42-50: [Node::many].  [d] bounds the depth (128 levels suffice). *)
  Definition node_parse (many : option (M (list node))) : M node := fun s i =>
    match block_tag i with
    | POk j t =>
        match block_kind (match many with Some m => m | None => fun s _ => (PStuck, s) end) t with
        | None => (PErr i None, s)
        | Some f =>
            match st_nest s j with
            | (POk j _, s1) =>
                match st_leave (match many with Some _ => f s1 j | None => (PStuck, s1) end) with
                | (POk r n, s2) => (block_close n r, s2)
                | x => x
                end
            | (PErr e m, s1) => (PErr e m, s1) | (PFail e m, s1) => (PFail e m, s1) | (PStuck, s1) => (PStuck, s1)
            end
        end
    | PErr e m => (PErr e m, s) | PFail e m => (PFail e m, s) | PStuck => (PStuck, s)
    end.
  Definition node_one (many : option (M (list node))) : M node :=
    lift (pmap NLit lit_parse) <||> lift (pmap (fun '(w, c) => NComment w c) comment_parse) <||> expr_node <||> node_parse many.
  Fixpoint node_many (d : nat) : M (list node) :=
    mmany0 (node_one (match d with O => None | S d' => Some (node_many d') end)).

  (** lib.rs:90-104: the part of [Ast::from_str] before the error is formatted. *)
  Definition state0 : pstate := {| level := 0; loop_depth := 0 |}.
  Definition parse_template (src : str) : pres (list node) :=
    fst ((l <-- node_many MAX_DEPTH ;; (lift (cut eof) ;;-- mret l)) state0 src).
End Node.

(** ** The error report, lib.rs:106-123 *)
(** [str::lines]: split after each line feed, without the final empty line; a carriage return before the line feed is
    dropped. *)
Fixpoint lines_raw (s : str) : list str :=
  match s with
  | [] => []
  | c :: s' => if c =? 10 then [] :: lines_raw s'
               else match lines_raw s' with [] => [[c]] | l :: r => (c :: l) :: r end
  end.
Definition drop_cr (l : str) : str :=
  match last_opt l with Some c => if c =? 13 then removelast l else l | None => l end.
(** A line that ends in a line feed loses a carriage return before it; the last line without line feed keeps it. *)
Fixpoint str_lines_ (ls : list str) (s_ends_lf : bool) : list str :=
  match ls with [] => [] | [l] => [if s_ends_lf then drop_cr l else l] | l :: r => drop_cr l :: str_lines_ r s_ends_lf end.
Definition ends_lf (s : str) : bool := match last_opt s with Some c => c =? 10 | None => false end.
Definition str_lines (s : str) : list str := str_lines_ (lines_raw s) (ends_lf s).
Record perror := { pe_message : option str; pe_row : nat; pe_column : nat; pe_after : str }.
Definition error_report (debug_str : str -> str) (src : str) (input : str) (m : option str) : perror :=
  let offset := (length src - length input)%nat in
  let before := firstn offset src in
  let after := skipn offset src in
  let ls := str_lines before in
  let '(row, last_line) := match last_opt ls with Some l => (length ls - 1, l)%nat | None => (O, []) end in
  {| pe_message := m; pe_row := row; pe_column := length last_line;
     pe_after := if Nat.leb 41 (length after) then debug_str (firstn 40 after) ++ lit "..." else debug_str after |}.
(** lib.rs:90-123: [Ast::from_str].  [None]: a panic or a loop of the model. *)
Definition from_str (is_lowercase : N -> bool) (debug_str : str -> str) (sy : syntax) (src : str) : option (list node + perror) :=
  match parse_template is_lowercase debug_str sy src with
  | POk [] ns => Some (inl ns)
  | POk _ _ | PStuck => None
  | PErr e m | PFail e m => Some (inr (error_report debug_str src e m))
  end.
