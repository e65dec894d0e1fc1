(** * Model of the whitespace machine of the generator (generator.rs:1145-1173, 1773-1827). *)
From Verif Require Import Base.
Local Open Scope N_scope.

(** config.rs:213-222: [WhitespaceHandling]; askama_parser/src/node.rs:421-427: [Whitespace] has the same three cases
    (the conversions config.rs:224-243 are the identity here). *)
Inductive handling := Preserve | Suppress | Minimize.

(** askama_parser/src/node.rs:1115: [Ws(Option<Whitespace>, Option<Whitespace>)]: markers of the left and right delimiter. *)
Record ws := { ws_l : option handling; ws_r : option handling }.
Definition no_ws : ws := {| ws_l := None; ws_r := None |}.

(** node.rs:838-842: a literal with its leading and trailing blanks. *)
Record literal := { lws : str; lval : str; rws : str }.

(** askama_parser/src/lib.rs:246-248: space, tab, carriage return, newline. *)
Definition is_ws (c : N) : bool := (c =? 32) || (c =? 9) || (c =? 13) || (c =? 10).
(** [str::trim_start_matches] for [is_ws] (std). *)
Fixpoint skip_ws (s : str) : str :=
  match s with [] => [] | c :: s' => if is_ws c then skip_ws s' else s end.
(** node.rs:865-874: [Lit::split_ws_parts]; slicing by lengths of suffixes of the same text cannot fail. *)
Definition split_ws_parts (s : str) : literal :=
  let trimmed_start := skip_ws s in
  let len_start := (length s - length trimmed_start)%nat in
  let trimmed := rev (skip_ws (rev trimmed_start)) in
  {| lws := firstn len_start s; lval := trimmed; rws := skipn (length trimmed) trimmed_start |}.

(** The two fields of the generator (generator.rs:32-35) and what is pushed to [buf_writable] (in order). *)
Record wstate := { next_ws : option str; skip : handling }.

(** generator.rs:1780-1787: [should_trim_ws]; [dflt] is [self.input.config.whitespace]. *)
Definition should_trim_ws (dflt : handling) (w : option handling) : handling :=
  match w with Some h => h | None => dflt end.

Definition has_newline (s : str) : bool := mem_chr 10 s.
(** [match val.contains('\n') { true => "\n", false => " " }]: generator.rs:1159-1162, 1809-1812. *)
Definition minimized (s : str) : str := if has_newline s then [10] else [32].

(** generator.rs:1792-1819: [flush_ws]: the literals pushed and the new state. *)
Definition flush_ws (dflt : handling) (l : option handling) (st : wstate) : list str * wstate :=
  match next_ws st with
  | None => ([], st)
  | Some val =>
      (match should_trim_ws dflt l with
       | Preserve => match val with [] => [] | _ => [val] end
       | Minimize => match val with [] => [] | _ => [minimized val] end
       | Suppress => []
       end, {| next_ws := None; skip := skip st |})
  end.
(** generator.rs:1824-1826: [prepare_ws]. *)
Definition prepare_ws (dflt : handling) (r : option handling) (st : wstate) : wstate :=
  {| next_ws := next_ws st; skip := should_trim_ws dflt r |}.
(** generator.rs:1775-1778: [handle_ws]. *)
Definition handle_ws (dflt : handling) (w : ws) (st : wstate) : list str * wstate :=
  let (out, st) := flush_ws dflt (ws_l w) st in (out, prepare_ws dflt (ws_r w) st).

(** generator.rs:1145-1173: [visit_lit]; [None] is a failed assertion. *)
Definition visit_lit (l : literal) (st : wstate) : option (list str * wstate) :=
  match next_ws st with
  | Some _ => None
  | None =>
      let? r :=
        match lws l with
        | [] => Some ([], st)
        | lw => match skip st, lval l with
                | Suppress, _ => Some ([], st)
                | _, [] => match rws l with [] => Some ([], {| next_ws := Some lw; skip := skip st |}) | _ => None end
                | Preserve, _ => Some ([lw], st)
                | Minimize, _ => Some ([minimized lw], st)
                end
        end in
      let (o1, st1) := r : list str * wstate in
      let (o2, st2) := match lval l with
                       | [] => ([], st1)
                       | v => ([v], {| next_ws := next_ws st1; skip := Preserve |})
                       end in
      let st3 := match rws l with [] => st2 | rw => {| next_ws := Some rw; skip := skip st2 |} end in
      Some (o1 ++ o2, st3)
  end.

(** ** Sequences of tags and literals in source order *)
(** A tag with its two markers, or a literal.  (generator.rs:248-338 calls [visit_lit] for literals and one
    [flush_ws]/[prepare_ws] pair per tag.) *)
Inductive item := ILit (l : literal) | ITag (w : ws).

(** generator.rs:45-62: initial state. *)
Definition ws_init : wstate := {| next_ws := None; skip := Preserve |}.
(** generator.rs:329-334: at the end of a template, pending blanks are flushed as [skip_ws] says. *)
Definition flush_end (dflt : handling) (st : wstate) : list str :=
  match next_ws st with None => [] | Some _ => fst (flush_ws dflt (Some (skip st)) st) end.

Fixpoint ws_run (dflt : handling) (its : list item) (st : wstate) : option (list str) :=
  match its with
  | [] => Some (flush_end dflt st)
  | ILit l :: its' =>
      let? r := visit_lit l st in
      let? o := ws_run dflt its' (snd r) in Some (fst r ++ o)
  | ITag w :: its' =>
      let (o1, st') := handle_ws dflt w st in
      let? o := ws_run dflt its' st' in Some (o1 ++ o)
  end.

(** ** Specification *)
(** What a marker does to blanks. *)
Definition treat (h : handling) (blank : str) : str :=
  match h with
  | Preserve => blank
  | Suppress => []
  | Minimize => match blank with [] => [] | _ => if existsb (N.eqb 10) blank then [10] else [32] end
  end.
(** The text a literal contributes between a tag whose right marker means [before] and a tag whose left marker means
    [after]; [None]: the literal is at the beginning or end of the template. *)
Definition hd_or (d : handling) (o : option handling) : handling := match o with Some h => h | None => d end.
(** Suppress over minimize over preserve (book/src/template_syntax.md, Whitespace control). *)
Definition stronger (a b : handling) : handling :=
  match a, b with
  | Suppress, _ | _, Suppress => Suppress
  | Minimize, _ | _, Minimize => Minimize
  | _, _ => Preserve
  end.
Definition lit_spec (combine : handling -> handling -> handling) (before after : option handling) (l : literal) : str :=
  match lval l with
  | [] => treat (match before, after with
                 | Some a, Some b => combine a b
                 | Some a, None => a
                 | None, Some b => b
                 | None, None => Preserve
                 end) (lws l)
  | v => treat (hd_or Preserve before) (lws l) ++ v ++ treat (hd_or Preserve after) (rws l)
  end.
(** As the code resolves two markers on the same blank literal. *)
Definition combine_code (a b : handling) : handling := match a with Suppress => Suppress | _ => b end.

(** Text of the whole sequence: every literal on its own, tags contribute nothing. *)
Fixpoint spec_run (dflt : handling) (combine : handling -> handling -> handling) (before : option handling) (its : list item) : str :=
  match its with
  | [] => []
  | ITag w :: its' => spec_run dflt combine (Some (hd_or dflt (ws_r w))) its'
  | ILit l :: its' =>
      let after := match its' with ITag w :: _ => Some (hd_or dflt (ws_l w)) | _ => None end in
      lit_spec combine before after l ++ spec_run dflt combine None its'
  end.

(** The shape the parser produces: no two literals in a row, and blank literals have all blanks in [lws]. *)
Definition lit_ok (l : literal) : Prop := lval l = [] -> rws l = [].
Fixpoint items_ok (its : list item) : Prop :=
  match its with
  | [] => True
  | ITag _ :: its' => items_ok its'
  | ILit l :: its' => lit_ok l /\ match its' with ILit _ :: _ => False | _ => True end /\ items_ok its'
  end.
(** No blank literal stands between a minimizing right marker and a preserving left marker. *)
Fixpoint no_conflict (dflt : handling) (before : option handling) (its : list item) : Prop :=
  match its with
  | [] => True
  | ITag w :: its' => no_conflict dflt (Some (hd_or dflt (ws_r w))) its'
  | ILit l :: its' =>
      match its' with
      | ITag w :: _ => ~ (lval l = [] /\ lws l <> [] /\ before = Some Minimize /\ hd_or dflt (ws_l w) = Preserve)
      | _ => True
      end /\ no_conflict dflt None its'
  end.
