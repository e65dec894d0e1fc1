(** * Specification of block fragments ([block = "x"]): which templates Prop_Frag.v speaks about, and what a fragment is. *)
From Verif Require Import Base Ws Ast GenExpr Heritage Gen RefSem.
Local Open Scope N_scope.

Section Frag.
  Variable inp : ginput.
  Variable contexts : list (str * context).
  Variable find : str -> str -> res str.
  (** The block that is asked for, and the blocks it stands inside of, the outermost first *)
  Variable x : str.
  Variable path : list str.

  (** A template with neither blocks nor a parent *)
  Definition stands_alone (c : context) : bool := match c_blocks c, c_extends c with [], None => true | _, _ => false end.
  (** The included template, if there is one, stands alone. *)
  Definition include_alone (p : str) : bool :=
    match find p (f_path inp) with Ok q => match get q contexts with Some c => stands_alone c | None => true end | _ => true end.
  (** No block [x], nor one that leads to it, in a node, wherever it stands, and nothing included that has blocks.  Of a block inside of the node the name
      counts; its body is that of some definition of the block, see [apart]. *)
  Fixpoint lacks (n : node) : bool :=
    match n with
    | NIf _ cs => forallb (fun c => match c with Cond _ _ ns => forallb lacks ns end) cs
    | NMatch _ _ arms _ => forallb (fun c => match c with When _ _ ns => forallb lacks ns end) arms
    | NLoop _ _ _ _ body _ els _ => forallb lacks body && forallb lacks els
    | NFilterBlock _ _ _ ns _ => forallb lacks ns
    | NBlockDef _ y _ _ => negb (mem_str y (x :: path))
    | NInclude _ p => include_alone p
    | _ => true
    end.
  (** In every template: the other blocks, the macros, and what can be included have none of these inside. *)
  Definition apart : bool :=
    forallb (fun pc => let c := snd pc in
      forallb (fun yd => mem_str (fst yd) (x :: path) || forallb lacks (b_nodes (snd yd))) (c_blocks c) &&
      forallb (fun yd => forallb lacks (k_nodes (snd yd))) (c_macros c) &&
      (negb (stands_alone c) || forallb lacks (c_nodes c))) contexts.
  (** Text, expressions, comments *)
  Definition quiet (n : node) : bool :=
    match n with NLit _ | NComment _ _ | NExpr _ _ | NRaw _ _ _ => true | _ => false end.
  Definition another_block (n : node) : bool := match n with NBlockDef _ y _ _ => negb (mem_str y (x :: path)) | _ => false end.
  (** What stands beside the block at the top of the base template: text, expressions, comments, definitions, other blocks;
      no let, if, match, for, call, include or filter block. *)
  Definition beside (n : node) : bool :=
    match n with
    | NExtends _ | NImport _ _ _ | NMacro _ _ _ _ _ => true
    | _ => quiet n || another_block n
    end.
  (** Block [y], seen with the macros and imports of [ctx], is the block [x] or holds it, inside of the blocks [p]: in the
      definition that counts there is the next block, before it only text, expressions, comments and other blocks, after
      it only text, expressions and comments.  [last]: the macros and imports seen where [x] stands. *)
  Inductive holds (h : heritage) : list str -> context -> str -> context -> Prop :=
  | holds_here ctx : holds h [] ctx x ctx
  | holds_in y p ctx c d ds pre w1 z body w2 post last :
      y <> x -> get y (h_blocks h) = Some ((c, d) :: ds) -> b_nodes d = pre ++ NBlockDef w1 z body w2 :: post ->
      forallb (fun n => quiet n || another_block n) pre = true -> forallb quiet post = true ->
      holds h p (merge_context ctx c) z last -> holds h (y :: p) ctx y last.

  (** The fragment: a template that consists of the block alone, with the parents of the given one, and with the macros and
      imports of [ctx]. *)
  Definition alone : node := NBlockDef {| ws_l := None; ws_r := None |} x [] {| ws_l := None; ws_r := None |}.
  Definition fragment (fuel : nat) (h : heritage) (ctx : context) : gres (list tnode) :=
    let* (t, _) := elab inp contexts find fuel (Some h) ctx None [alone] true ws_init in GOk t.
End Frag.
