(** * Specification of whitespace control for whole templates: C26, C52.
    A template, with its macro calls, blocks and includes put in place, is a sequence of tags and pieces of text ([flat]); the
    text that is put out is that of every piece on its own, between the tag before it and the tag after it ([page]).
    [lit_spec] (Ws.v) says what a marker does to a piece. *)
From Verif Require Import Base Ws Ast GenExpr Heritage Gen RefSem HeritageSpec.
Local Open Scope N_scope.

(** A piece of text; a tag with its two markers; the tag of an include: the included file begins after [XOpen] and ends before
    [XClose], and there its text is at the beginning or end of a file. *)
Inductive xitem := XLit (l : literal) | XTag (w : ws) | XOpen (w : ws) | XClose (w : ws).

(** The marker after a piece of text, [None] at the end of a file. *)
Definition marker_after (dflt : handling) (its : list xitem) : option handling :=
  match its with XTag w :: _ | XOpen w :: _ => Some (hd_or dflt (ws_l w)) | _ => None end.
(** The text of the sequence; [before] is the marker before it, [None] at the beginning of a file.  Two pieces of text never
    follow each other in practice; then the second counts as preceded by no marker, unless the first is all blanks. *)
Fixpoint page (dflt : handling) (before : option handling) (its : list xitem) : str :=
  match its with
  | [] => []
  | XLit l :: its' => lit_spec combine_code before (marker_after dflt its') l ++ page dflt (match lval l with [] => before | _ => None end) its'
  | XTag w :: its' | XClose w :: its' => page dflt (Some (hd_or dflt (ws_r w))) its'
  | XOpen w :: its' => page dflt None its'
  end.

(** The macro a call means: of the template the call stands in, or of the template imported under the name before [::]. *)
Inductive macro_found (contexts : list (str * context)) (ctx : context) (name : str) : option str -> macro_def -> context -> Prop :=
| mf_own def : get name (c_macros ctx) = Some def -> macro_found contexts ctx name None def ctx
| mf_imported s path c def : get s (c_imports ctx) = Some path -> get path contexts = Some c -> get name (c_macros c) = Some def ->
    macro_found contexts ctx name (Some s) def c.
(** The chain of parents of a template, if it has blocks or a parent. *)
Inductive chain_of (fuel : nat) (contexts : list (str * context)) (c : context) : option heritage -> Prop :=
| co_none : c_blocks c = [] -> c_extends c = None -> chain_of fuel contexts c None
| co_some h : (c_blocks c <> [] \/ c_extends c <> None) -> heritage_new fuel contexts c = GOk h -> chain_of fuel contexts c (Some h).
Definition base_of (her : option heritage) (c : context) : context := match her with Some h => h_root h | None => c end.
(** Tags without contents *)
Definition plain_tag (n : node) : option ws :=
  match n with
  | NComment w _ | NImport w _ _ | NExpr w _ | NLet w _ _ | NBreak w | NContinue w => Some w
  | NMacro w1 _ _ _ w2 => Some {| ws_l := ws_l w1; ws_r := ws_r w2 |}        (* a definition puts out nothing *)
  | _ => None
  end.
Definition cond_body (c : cond) : ws * list node := match c with Cond w _ ns => (w, ns) end.
Definition when_body (c : when_) : ws * list node := match c with When w _ ns => (w, ns) end.

Section Flat.
  Variable inp : ginput.
  Variable contexts : list (str * context).
  Variable find : str -> str -> res str.
  (** [her]: blocks of the template and its parents; [ctx]: macros and imports that can be named; [sup]: the block being
      rendered and how far up the chain its definition is.
      A macro call is the text of the macro, where the text around the call meets the markers of the call, and the text in
      the macro those of the macro; the same for blocks. *)
  Inductive flat : option heritage -> context -> option (str * nat) -> list node -> list xitem -> Prop :=
  | fl_nil her ctx sup : flat her ctx sup [] []
  | fl_cons her ctx sup n l a b : flat_node her ctx sup n a -> flat her ctx sup l b -> flat her ctx sup (n :: l) (a ++ b)
  with flat_node : option heritage -> context -> option (str * nat) -> node -> list xitem -> Prop :=
  | fl_lit her ctx sup l : flat_node her ctx sup (NLit l) [XLit l]
  | fl_tag her ctx sup n w : plain_tag n = Some w -> flat_node her ctx sup n [XTag w]
  | fl_raw her ctx sup w1 l w2 : flat_node her ctx sup (NRaw w1 l w2) [XTag w1; XLit l; XTag w2]
  | fl_extends her ctx sup p : flat_node her ctx sup (NExtends p) []
  | fl_if her ctx sup w cs a : flat_parts her ctx sup (map cond_body cs) a -> flat_node her ctx sup (NIf w cs) (a ++ [XTag w])
  | fl_match her ctx sup w1 e arms w2 a : flat_parts her ctx sup (map when_body arms) a ->
      flat_node her ctx sup (NMatch w1 e arms w2) (XTag w1 :: a ++ [XTag w2])
  | fl_loop her ctx sup w1 v it c body w2 els w3 a b : flat her ctx sup body a -> flat her ctx sup els b ->
      flat_node her ctx sup (NLoop w1 v it c body w2 els w3) (XTag w1 :: a ++ XTag w2 :: b ++ [XTag w3])
  | fl_filter her ctx sup w1 x args body w2 a : flat her ctx sup body a -> flat_node her ctx sup (NFilterBlock w1 x args body w2) (XTag w1 :: a ++ [XTag w2])
  | fl_call her ctx sup w scope name args def c a : name <> lit "super" -> macro_found contexts ctx name scope def c ->
      flat her c sup (k_nodes def) a ->
      flat_node her ctx sup (NCall w scope name args)
        (XTag {| ws_l := ws_l w; ws_r := ws_r (k_ws1 def) |} :: a ++ [XTag {| ws_l := ws_l (k_ws2 def); ws_r := ws_r w |}])
  | fl_block h ctx sup w1 x ns w2 defs c d cc a : get x (h_blocks h) = Some defs -> nth_error defs 0 = Some (c, d) -> sees ctx c cc ->
      flat (Some h) cc (Some (x, O)) (b_nodes d) a ->
      flat_node (Some h) ctx sup (NBlockDef w1 x ns w2)
        (XTag {| ws_l := ws_l w1; ws_r := ws_r (b_ws1 d) |} :: a ++ [XTag {| ws_l := ws_l (b_ws2 d); ws_r := ws_r w2 |}])
  | fl_super h ctx x g w scope args defs c d cc a : get x (h_blocks h) = Some defs -> nth_error defs (S g) = Some (c, d) -> sees ctx c cc ->
      flat (Some h) cc (Some (x, S g)) (b_nodes d) a ->
      flat_node (Some h) ctx (Some (x, g)) (NCall w scope (lit "super") args)
        (XTag {| ws_l := ws_l w; ws_r := ws_r (b_ws1 d) |} :: a ++ [XTag {| ws_l := ws_l (b_ws2 d); ws_r := ws_r w |}])
  | fl_include her ctx sup w path p c h cc a : find path (f_path inp) = Ok p -> get p contexts = Some c -> sees ctx c cc ->
      chain_of (S (length contexts)) contexts cc h -> flat h (base_of h cc) None (c_nodes (base_of h cc)) a ->
      flat_node her ctx sup (NInclude w path) (XOpen w :: a ++ [XClose w])
  with flat_parts : option heritage -> context -> option (str * nat) -> list (ws * list node) -> list xitem -> Prop :=
  | fp_nil her ctx sup : flat_parts her ctx sup [] []
  | fp_cons her ctx sup w ns l a b : flat her ctx sup ns a -> flat_parts her ctx sup l b -> flat_parts her ctx sup ((w, ns) :: l) (XTag w :: a ++ b).
End Flat.

(** The text in a template put together, in order. *)
Fixpoint all_text (n : tnode) : str :=
  let many := fun l => concat (map all_text l) in
  match n with
  | TText s => s
  | TIf bs => concat (map (fun x => match x with (_, b) => many b end) bs)
  | TMatch _ arms => concat (map (fun x => match x with (_, b) => many b end) arms)
  | TFor _ _ _ body els tail => many body ++ many els ++ many tail
  | TBlock b | TInclude b | TMacro _ b | TFilter _ _ b => many b
  | _ => []
  end.
Definition texts_in (l : list tnode) : str := concat (map all_text l).

(** All pieces of text in a template *)
Fixpoint lits (n : node) : list literal :=
  let many := fun l => concat (map lits l) in
  match n with
  | NLit l | NRaw _ l _ => [l]
  | NIf _ cs => concat (map (fun x => match x with Cond _ _ ns => many ns end) cs)
  | NMatch _ _ arms _ => concat (map (fun x => match x with When _ _ ns => many ns end) arms)
  | NLoop _ _ _ _ body _ els _ => many body ++ many els
  | NBlockDef _ _ ns _ | NMacro _ _ _ ns _ | NFilterBlock _ _ _ ns _ => many ns
  | _ => []
  end.
Definition lits_in (l : list node) : list literal := concat (map lits l).
