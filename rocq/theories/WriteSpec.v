(** * Specification: how a template is written, and which tree the text stands for. *)
From Verif Require Import Base Ws Config Ast LitSpec ParseSpec TreeSpec PrecSpec.
Local Open Scope N_scope.

(** ** Targets *)
(** Commas have a space after them; an alternative that has alternatives itself is in parentheses; a field that is bound to
    its own name is written once. *)
Definition is_or (t : target) : bool := match t with TOrChain _ => true | _ => false end.
Definition names (t : target) (n : str) : bool := match t with TName x => str_eqb x n | _ => false end.
Fixpoint ttext (t : target) : str :=
  match t with
  | TName s | TNumLit s | TBoolLit s => s
  | TStrLit s => lit """" ++ s ++ lit """"
  | TCharLit s => lit "'" ++ s ++ lit "'"
  | TPath p => sep_by (lit "::") p
  | TTuple p l => sep_by (lit "::") p ++ lit "(" ++ sep_by (lit ", ") (map ttext l) ++ lit ")"
  | TStruct p l =>
      sep_by (lit "::") p ++ lit " {" ++
      sep_by (lit ", ") (map (fun x => if names (snd x) (fst x) then fst x else fst x ++ lit ": " ++ ttext (snd x)) l) ++ lit "}"
  | TOrChain l => sep_by (lit " or ") (map (fun t => if is_or t then lit "(" ++ ttext t ++ lit ")" else ttext t) l)
  end.
(** The levels that the parser counts for a target. *)
Fixpoint tdepth (t : target) : nat :=
  match t with
  | TName _ | TNumLit _ | TBoolLit _ | TStrLit _ | TCharLit _ | TPath _ => 1%nat
  | TTuple _ l => S (max_list (map tdepth l))
  | TStruct _ l => S (max_list (map (fun x => tdepth (snd x)) l))
  | TOrChain l => max_list (map (fun t => if is_or t then S (tdepth t) else tdepth t) l)
  end.

(** A word at the start of a text: what follows it does not belong to the same name. *)
Definition word_char (c : N) : Prop := ident_start c \/ 48 <= c <= 57.
Definition no_word (s : str) : Prop := match s with c :: _ => ~ word_char c | [] => True end.
Definition starts_word (w s : str) : Prop := exists r, s = w ++ r /\ no_word r.
(** Blanks between a keyword and [t]; none are needed if [t] does not start like a name. *)
Definition apart (b t : str) : Prop := blanks b /\ (b = [] -> no_word t).
Definition gap (b : str) : Prop := blanks b /\ b <> [].
(** A whitespace marker at the start of a text. *)
Definition no_mark (s : str) : Prop := match s with c :: _ => ~ In c (lit "+-~") | [] => True end.
(** The marker at the end of a comment. *)
Definition ends_in (m : option handling) (t : str) : Prop :=
  match m with
  | Some _ => exists u, t = u ++ mark m
  | None => forall u c, t = u ++ [c] -> ~ In c (lit "+-~")
  end.

(** ** Arguments *)
Definition args_text (l : list expr) : str := lit "(" ++ sep_by (lit ", ") (map text l) ++ lit ")".
Definition opt_args (o : option (list expr)) : str := match o with Some l => args_text l | None => [] end.
Definition params_text (o : option (list str)) : str :=
  match o with Some l => lit "(" ++ sep_by (lit ", ") l ++ lit ")" | None => [] end.
Definition filter_text (f : str * option (list expr)) : str := fst f ++ opt_args (snd f).
(** A chain of filters: the result of each is the first argument of the next. *)
Definition some_list {A} (o : option (list A)) : list A := match o with Some l => l | None => [] end.
Fixpoint filter_chain (n : str) (l : list expr) (fs : list (str * option (list expr))) : str * list expr :=
  match fs with [] => (n, l) | (n', l') :: fs' => filter_chain n' (Filter n l :: some_list l') fs' end.

Section Write.
  (** [char::is_lowercase], and the delimiters. *)
  Variables (lc : N -> bool) (sy : syntax).
  Notation bs := (block_start sy).
  Notation be := (block_end sy).
  Notation cs := (comment_start sy).
  Notation ce := (comment_end sy).

  (** The targets that are written unambiguously.  A tuple with one element is left out (it needs a trailing comma). *)
  Definition pattern_path (p : list str) : Prop := proper_path lc p /\ forall x q, p = x :: q -> ~ is_bool x.
  Fixpoint target_ok (t : target) : Prop :=
    match t with
    | TName s => ident s /\ lower_first lc s /\ ~ is_bool s /\ ~ In s [lit "self"; lit "writer"]
    | TNumLit s => signed_number s
    | TStrLit s => quoted 34 s
    | TCharLit s => char_text s
    | TBoolLit s => is_bool s
    | TPath p => pattern_path p
    | TTuple p l =>
        match p with [] => length l <> 1%nat | _ => pattern_path p end /\
        (fix all l := match l with [] => True | t :: l' => target_ok t /\ all l' end) l
    | TStruct p l =>
        pattern_path p /\
        (fix all l := match l with
                      | [] => True
                      | x :: l' => ident (fst x) /\ (snd x = TName (fst x) /\ ~ In (fst x) [lit "self"; lit "writer"] \/ target_ok (snd x)) /\ all l'
                      end) l
    | TOrChain l => (2 <= length l)%nat /\ (fix all l := match l with [] => True | t :: l' => target_ok t /\ all l' end) l
    end.
  (** The parser has 128 levels; [k] of them are used. *)
  Definition target_fits (k : nat) (t : target) : Prop := target_ok t /\ (tdepth t + k <= 128)%nat.
  Definition fits (k : nat) (e : expr) : Prop := canon lc 0 e /\ (need e + 15 + k <= 128)%nat.
  Definition arg_fits (k : nat) (e : expr) : Prop := canon lc 0 e /\ (need e + 17 + k <= 128)%nat.
  (** Positional arguments, then named ones with different names. *)
  Definition args_fit (k : nat) (l : list expr) : Prop :=
    exists pos named, l = pos ++ map (fun x => NamedArgument (fst x) (snd x)) named /\
      Forall (arg_fits k) pos /\ Forall (fun x => ident (fst x) /\ arg_fits k (snd x)) named /\ NoDup (map fst named).
  (** Even an empty list takes levels, and the search for one takes one. *)
  Definition room (n k : nat) (o : option (list expr)) : Prop := match o with Some _ => (n + k <= 128)%nat | None => (1 + k <= 128)%nat end.
  Definition filter_fits (k : nat) (f : str * option (list expr)) : Prop :=
    ident (fst f) /\ room 16 k (snd f) /\ Forall (fun e => canon lc 0 e /\ (need e + 16 + k <= 128)%nat) (some_list (snd f)).

  (** ** Tags *)
  Definition btag (m : option handling) (b body b' : str) (m' : option handling) : str :=
    bs ++ mark m ++ b ++ body ++ b' ++ mark m' ++ be.
  (** A condition: an expression, or a pattern and an expression. *)
  Inductive test_text (k : nat) : cond_test -> str -> Prop :=
  | tt_plain e : fits k e -> (forall kw, In kw [lit "let"; lit "set"] -> ~ starts_word kw (text e)) ->
      test_text k {| ct_target := None; ct_expr := e |} (text e)
  | tt_let kw b1 t b2 b3 e : In kw [lit "let"; lit "set"] -> apart b1 (ttext t) -> target_fits k t -> blanks b2 -> blanks b3 -> fits k e ->
      test_text k {| ct_target := Some t; ct_expr := e |} (kw ++ b1 ++ ttext t ++ b2 ++ lit "=" ++ b3 ++ text e).
  (** The tags between [if] and [endif]. *)
  Inductive branch_text (k : nat) : option cond_test -> str -> Prop :=
  | bt_else : branch_text k None (lit "else")
  | bt_elif b1 c t : apart b1 t -> test_text k c t -> branch_text k (Some c) (lit "elif" ++ b1 ++ t)
  | bt_else_if b0 b1 c t : gap b0 -> apart b1 t -> test_text k c t -> branch_text k (Some c) (lit "else" ++ b0 ++ lit "if" ++ b1 ++ t).
  (** The iteration and the condition of a loop; an open range before [if] would continue. *)
  Definition open_range (e : expr) : Prop := exists o l, e = Range o l None.
  Inductive for_text (k : nat) : target -> expr -> option expr -> str -> Prop :=
  | ft_all t e b1 b2 b3 : apart b1 (ttext t) -> target_fits k t -> gap b2 -> apart b3 (text e) -> fits k e ->
      for_text k t e None (lit "for" ++ b1 ++ ttext t ++ b2 ++ lit "in" ++ b3 ++ text e)
  | ft_if t e c b1 b2 b3 b4 b5 : apart b1 (ttext t) -> target_fits k t -> gap b2 -> apart b3 (text e) -> fits k e -> ~ open_range e ->
      gap b4 -> apart b5 (text c) -> fits k c ->
      for_text k t e (Some c) (lit "for" ++ b1 ++ ttext t ++ b2 ++ lit "in" ++ b3 ++ text e ++ b4 ++ lit "if" ++ b5 ++ text c).
  (** The name in an end tag may be left out. *)
  Inductive end_text (kw name : str) : str -> Prop :=
  | et_plain : end_text kw name kw
  | et_name b : gap b -> end_text kw name (kw ++ b ++ name).

  (** The tags without a body. *)
  Inductive simple_text (k : nat) (inloop : bool) : ws -> node -> str -> Prop :=
  | st_call w b1 sc name args : gap b1 -> (forall s, sc = Some s -> ident s) -> ident name -> room 17 k args -> args_fit k (some_list args) ->
      simple_text k inloop w (NCall w sc name (some_list args))
        (lit "call" ++ b1 ++ match sc with Some s => s ++ lit "::" | None => [] end ++ name ++ opt_args args)
  | st_let w kw b1 t : In kw [lit "let"; lit "set"] -> apart b1 (ttext t) -> target_fits k t ->
      simple_text k inloop w (NLet w t None) (kw ++ b1 ++ ttext t)
  | st_let_to w kw b1 t b2 b3 e : In kw [lit "let"; lit "set"] -> apart b1 (ttext t) -> target_fits k t -> blanks b2 -> blanks b3 -> fits k e ->
      simple_text k inloop w (NLet w t (Some e)) (kw ++ b1 ++ ttext t ++ b2 ++ lit "=" ++ b3 ++ text e)
  | st_extends b1 p : blanks b1 -> quoted 34 p ->
      simple_text k inloop {| ws_l := None; ws_r := None |} (NExtends p) (lit "extends" ++ b1 ++ lit """" ++ p ++ lit """")
  | st_include w b1 p : blanks b1 -> quoted 34 p -> simple_text k inloop w (NInclude w p) (lit "include" ++ b1 ++ lit """" ++ p ++ lit """")
  | st_import w b1 p b2 b3 sc : blanks b1 -> quoted 34 p -> blanks b2 -> gap b3 -> ident sc ->
      simple_text k inloop w (NImport w p sc) (lit "import" ++ b1 ++ lit """" ++ p ++ lit """" ++ b2 ++ lit "as" ++ b3 ++ sc)
  | st_break w : inloop = true -> simple_text k inloop w (NBreak w) (lit "break")
  | st_continue w : inloop = true -> simple_text k inloop w (NContinue w) (lit "continue").
  (** The opening tags of blocks, macros and filter blocks, what the node is for the nodes inside, and the text of the end. *)
  Inductive body_text (k : nat) : (ws -> list node -> ws -> node) -> str -> str -> Prop :=
  | yt_block b1 name end_ : gap b1 -> ident name -> end_text (lit "endblock") name end_ ->
      body_text k (fun w ns w' => NBlockDef w name ns w') (lit "block" ++ b1 ++ name) end_
  | yt_macro b1 name b2 params end_ : gap b1 -> ident name -> name <> lit "super" -> blanks b2 -> Forall ident (some_list params) ->
      (params = None -> b2 = []) -> end_text (lit "endmacro") name end_ ->
      body_text k (fun w ns w' => NMacro w name (some_list params) ns w') (lit "macro" ++ b1 ++ name ++ b2 ++ params_text params) end_
  | yt_filter b1 f fs : gap b1 -> filter_fits k f -> Forall (filter_fits k) fs ->
      body_text k (fun w ns w' => let (n, l) := filter_chain (fst f) (some_list (snd f)) fs in NFilterBlock w n l ns w')
        (lit "filter" ++ b1 ++ filter_text f ++ concat (map (fun f => lit "|" ++ filter_text f) fs)) (lit "endfilter").

  (** ** Templates *)
  Definition opening (s : str) : Prop := exists d x, In d [bs; cs; expr_start sy] /\ s = d ++ x.
  (** [writes k inloop n t rest]: the node [n] is written as [t], with [k] levels in use, in the body of a loop or not, and
      with [rest] after it (text ends where a delimiter starts, so it matters what follows). *)
  Inductive writes : nat -> bool -> node -> str -> str -> Prop :=
  | w_lit k il l t rest : wf_literal l -> t = lws l ++ lval l ++ rws l -> t <> [] ->
      (forall u v, t = u ++ v -> v <> [] -> ~ opening (v ++ rest)) -> rest = [] \/ opening rest -> writes k il (NLit l) t rest
  | w_comment k il m m' t rest : closes cs ce 0 (t ++ ce ++ rest) rest -> (m = None -> no_mark (t ++ ce)) -> ends_in m' t ->
      writes k il (NComment {| ws_l := m; ws_r := m' |} (t ++ ce)) (cs ++ mark m ++ t ++ ce) rest
  | w_expr k il m b e b' m' rest : fits k e -> blanks b -> blanks b' -> (m = None -> b = [] -> forall t, text e <> 45 :: t) ->
      writes k il (NExpr {| ws_l := m; ws_r := m' |} e) (expr_tag (expr_start sy) (expr_end sy) m b (text e) b' m') rest
  | w_raw k il m1 b1 b2 m2 l t m3 b3 b4 m4 rest : (k < 128)%nat -> wf_literal l -> t = lws l ++ lval l ++ rws l ->
      blanks b1 -> blanks b2 -> blanks b3 -> blanks b4 ->
      (forall u v, t = u ++ v -> v <> [] -> ~ starts_keyword_tag bs be (lit "endraw") (v ++ keyword_tag bs be (lit "endraw") m3 b3 b4 m4 ++ rest)) ->
      writes k il (NRaw {| ws_l := m1; ws_r := m2 |} l {| ws_l := m3; ws_r := m4 |})
        (keyword_tag bs be (lit "raw") m1 b1 b2 m2 ++ t ++ keyword_tag bs be (lit "endraw") m3 b3 b4 m4) rest
  | w_simple k il m b body b' m' n rest : (k < 128)%nat -> blanks b -> blanks b' -> simple_text (S k) il {| ws_l := m; ws_r := m' |} n body ->
      writes k il n (btag m b body b' m') rest
  | w_body k il m1 b1 body b2 m2 mk ns t m3 b3 end_ b4 m4 rest : (k < 128)%nat -> blanks b1 -> blanks b2 -> blanks b3 -> blanks b4 ->
      body_text (S k) mk body end_ -> writes_all (S k) il ns t (btag m3 b3 end_ b4 m4 ++ rest) ->
      writes k il (mk {| ws_l := m1; ws_r := m2 |} ns {| ws_l := m3; ws_r := m4 |})
        (btag m1 b1 body b2 m2 ++ t ++ btag m3 b3 end_ b4 m4) rest
  | w_if k il m1 b1 b2 m2 b0 c ct ns t brs tb m3 b3 b4 m4 rest : (k < 128)%nat -> blanks b1 -> blanks b2 -> blanks b3 -> blanks b4 ->
      apart b0 ct -> test_text (S k) c ct -> writes_all (S k) il ns t (tb ++ btag m3 b3 (lit "endif") b4 m4 ++ rest) ->
      writes_branches (S k) il brs tb (btag m3 b3 (lit "endif") b4 m4 ++ rest) ->
      writes k il (NIf {| ws_l := m3; ws_r := m4 |} (Cond {| ws_l := m1; ws_r := m2 |} (Some c) ns :: brs))
        (btag m1 b1 (lit "if" ++ b0 ++ ct) b2 m2 ++ t ++ tb ++ btag m3 b3 (lit "endif") b4 m4) rest
  | w_match k il m1 b1 b2 m2 b0 e sp m5 b5 b6 m6 b7 tg ns t arms ta m3 b3 b4 m4 rest : (k < 128)%nat -> blanks b1 -> blanks b2 -> blanks b3 -> blanks b4 ->
      apart b0 (text e) -> fits (S k) e -> blanks sp -> blanks b5 -> blanks b6 -> apart b7 (ttext tg) -> target_fits (S k) tg ->
      writes_all (S k) il ns t (ta ++ btag m3 b3 (lit "endmatch") b4 m4 ++ rest) ->
      writes_arms (S k) il arms ta (btag m3 b3 (lit "endmatch") b4 m4 ++ rest) ->
      writes k il (NMatch {| ws_l := m1; ws_r := m2 |} e (When {| ws_l := m5; ws_r := m6 |} tg ns :: arms) {| ws_l := m3; ws_r := m4 |})
        (btag m1 b1 (lit "match" ++ b0 ++ text e) b2 m2 ++ sp ++ btag m5 b5 (lit "when" ++ b7 ++ ttext tg) b6 m6 ++ t ++ ta ++
         btag m3 b3 (lit "endmatch") b4 m4) rest
  | w_for k il m1 b1 b2 m2 tg e c ft ns t m3 b3 b4 m4 rest : (k < 128)%nat -> blanks b1 -> blanks b2 -> blanks b3 -> blanks b4 ->
      for_text (S k) tg e c ft -> writes_all (S k) true ns t (btag m3 b3 (lit "endfor") b4 m4 ++ rest) ->
      writes k il (NLoop {| ws_l := m1; ws_r := m2 |} tg e c ns {| ws_l := m3; ws_r := None |} [] {| ws_l := None; ws_r := m4 |})
        (btag m1 b1 ft b2 m2 ++ t ++ btag m3 b3 (lit "endfor") b4 m4) rest
  | w_for_else k il m1 b1 b2 m2 tg e c ft ns t m5 b5 b6 m6 els te m3 b3 b4 m4 rest : (k < 128)%nat -> blanks b1 -> blanks b2 -> blanks b3 -> blanks b4 ->
      blanks b5 -> blanks b6 -> for_text (S k) tg e c ft ->
      writes_all (S k) true ns t (btag m5 b5 (lit "else") b6 m6 ++ te ++ btag m3 b3 (lit "endfor") b4 m4 ++ rest) ->
      writes_all (S k) il els te (btag m3 b3 (lit "endfor") b4 m4 ++ rest) ->
      writes k il (NLoop {| ws_l := m1; ws_r := m2 |} tg e c ns {| ws_l := m5; ws_r := m6 |} els {| ws_l := m3; ws_r := m4 |})
        (btag m1 b1 ft b2 m2 ++ t ++ btag m5 b5 (lit "else") b6 m6 ++ te ++ btag m3 b3 (lit "endfor") b4 m4) rest
  with writes_all : nat -> bool -> list node -> str -> str -> Prop :=
  | wa_nil k il rest : writes_all k il [] [] rest
  | wa_cons k il n t ns u rest : writes k il n t (u ++ rest) -> writes_all k il ns u rest -> writes_all k il (n :: ns) (t ++ u) rest
  with writes_branches : nat -> bool -> list cond -> str -> str -> Prop :=
  | wb_nil k il rest : writes_branches k il [] [] rest
  | wb_cons k il m b body b' m' c ns t brs u rest : blanks b -> blanks b' -> branch_text k c body ->
      writes_all k il ns t (u ++ rest) -> writes_branches k il brs u rest ->
      writes_branches k il (Cond {| ws_l := m; ws_r := m' |} c ns :: brs) (btag m b body b' m' ++ t ++ u) rest
  with writes_arms : nat -> bool -> list when_ -> str -> str -> Prop :=
  | wr_nil k il rest : writes_arms k il [] [] rest
  | wr_when k il m b b1 tg b' m' ns t arms u rest : blanks b -> blanks b' -> apart b1 (ttext tg) -> target_fits k tg ->
      writes_all k il ns t (u ++ rest) -> writes_arms k il arms u rest ->
      writes_arms k il (When {| ws_l := m; ws_r := m' |} tg ns :: arms) (btag m b (lit "when" ++ b1 ++ ttext tg) b' m' ++ t ++ u) rest
  | wr_else k il m b b' m' ns t rest : blanks b -> blanks b' -> writes_all k il ns t rest ->
      writes_arms k il [When {| ws_l := m; ws_r := m' |} (TName (lit "_")) ns] (btag m b (lit "else") b' m' ++ t) rest.
  (** A whole template. *)
  Definition writes_template (ns : list node) (src : str) : Prop := writes_all 0 false ns src [].
End Write.
(** A block delimiter after which a pattern cannot continue either. *)
Definition block_end_ok (s : str) : Prop := plain_end s /\ hd_error s <> Some 123.
