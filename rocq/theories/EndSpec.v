(** * When the expansion of a template ends: specification for C40.
    The body of a template, block or macro is a [piece]; it leads to the pieces that are expanded in its place. *)
From Verif Require Import Base Ws Ast GenExpr Heritage Gen HeritageSpec.
Local Open Scope N_scope.

(** What is expanded: nodes, with the blocks of the template and its parents, what can be named, and the block it is part of. *)
Record piece := { p_her : option heritage; p_ctx : context; p_sup : option (str * nat); p_nodes : list node }.

(** All nodes in a node, itself included; the bodies of blocks and macros are pieces of their own. *)
Fixpoint sites (n : node) : list node :=
  n :: match n with
       | NIf _ cs => flat_map (fun c => match c with Cond _ _ ns => flat_map sites ns end) cs
       | NMatch _ _ arms _ => flat_map (fun c => match c with When _ _ ns => flat_map sites ns end) arms
       | NLoop _ _ _ _ body _ els _ => flat_map sites body ++ flat_map sites els
       | NFilterBlock _ _ _ ns _ => flat_map sites ns
       | _ => []
       end.

(** No template is its own ancestor: every line of parents ends. *)
Definition all_lineages (contexts : list (str * context)) : Prop := forall p c, get p contexts = Some c -> exists l, lineage contexts c l.

Section Leads.
  Variable inp : ginput.
  Variable contexts : list (str * context).
  Variable find : str -> str -> res str.

  (** The [g]-th definition of block [x], from the most derived one up *)
  Definition block_piece (p : piece) (x : str) (g : nat) : option piece :=
    match p_her p with
    | None => None
    | Some h => match get x (h_blocks h) with
                | None => None
                | Some defs => match nth_error defs g with
                               | None => None
                               | Some (c, d) => Some {| p_her := Some h; p_ctx := merge_context (p_ctx p) c; p_sup := Some (x, g); p_nodes := b_nodes d |}
                               end
                end
    end.
  Definition macro_piece (p : piece) (def : macro_def) (c : context) : piece :=
    {| p_her := p_her p; p_ctx := c; p_sup := p_sup p; p_nodes := k_nodes def |}.
  (** A whole template: where its expansion starts *)
  Definition opened (c : context) : option piece :=
    match c_blocks c, c_extends c with
    | [], None => Some {| p_her := None; p_ctx := c; p_sup := None; p_nodes := c_nodes c |}
    | _, _ => match heritage_new (S (length contexts)) contexts c with
              | GOk h => Some {| p_her := Some h; p_ctx := h_root h; p_sup := None; p_nodes := c_nodes (h_root h) |}
              | _ => None
              end
    end.
  (** What stands for a node in piece [p].  A block inside of itself is an error and leads nowhere. *)
  Definition leads_to (p : piece) (n : node) : option piece :=
    match n with
    | NBlockDef _ x _ _ => match p_sup p with
                           | Some (y, _) => if str_eqb x y then None else block_piece p x O
                           | None => block_piece p x O
                           end
    | NCall _ scope name _ =>
        if str_eqb name (lit "super") then match p_sup p with Some (x, g) => block_piece p x (S g) | None => None end
        else match scope with
             | None => option_map (fun def => macro_piece p def (p_ctx p)) (get name (c_macros (p_ctx p)))
             | Some s => match get s (c_imports (p_ctx p)) with
                         | None => None
                         | Some path => match get path contexts with
                                        | None => None
                                        | Some c => option_map (fun def => macro_piece p def c) (get name (c_macros c))
                                        end
                         end
             end
    | NInclude _ path =>
        match find path (f_path inp) with
        | Ok q => match get q contexts with
                  | None => None
                  | Some c => opened (merge_context (p_ctx p) c)
                  end
        | _ => None
        end
    | _ => None
    end.
  Definition leads (p q : piece) : Prop := exists n, In n (flat_map sites (p_nodes p)) /\ leads_to p n = Some q.
  (** Every chain of pieces from [p] on ends. *)
  Inductive ends (p : piece) : Prop := ends_when : (forall q, leads p q -> ends q) -> ends p.
End Leads.
