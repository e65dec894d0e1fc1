(** * Model of askama_derive/src/heritage.rs (contexts, inheritance chains) and of [find_used_templates] in input.rs. *)
From Verif Require Import Base Ws Ast.
Local Open Scope N_scope.

(** Outcome of a step of the derive macro: a value, a compile error, a panic, or out of fuel (the code goes on forever, or
    until the stack overflows, when no amount of fuel is enough). *)
Inductive gres (A : Type) := GOk (a : A) | GErr (msg : str) | GPanic | GFuel.
Arguments GOk {A} a.
Arguments GErr {A} msg.
Arguments GPanic {A}.
Arguments GFuel {A}.
Definition gbind {A B} (r : gres A) (k : A -> gres B) : gres B :=
  match r with GOk a => k a | GErr m => GErr m | GPanic => GPanic | GFuel => GFuel end.
Notation "'let*' x := r 'in' k" := (gbind r (fun x => k)) (at level 200, x pattern, right associativity).
Definition of_res {A} (r : res A) : gres A := match r with Ok a => GOk a | Err m => GErr m | Panic => GPanic end.

(** A [HashMap] with string keys: an association list without repeated keys.  [put] is [insert]. *)
Fixpoint get {A} (k : str) (l : list (str * A)) : option A :=
  match l with [] => None | (k', v) :: l' => if str_eqb k k' then Some v else get k l' end.
Fixpoint put {A} (k : str) (v : A) (l : list (str * A)) : list (str * A) :=
  match l with [] => [(k, v)] | (k', v') :: l' => if str_eqb k k' then (k, v) :: l' else (k', v') :: put k v l' end.
(** [entry(k).or_insert(v)] *)
Definition put_new {A} (k : str) (v : A) (l : list (str * A)) : list (str * A) :=
  match get k l with Some _ => l | None => put k v l end.

(** node.rs: [BlockDef] (685-690) and [Macro] (579-586) *)
Record block_def := { b_ws1 : ws; b_name : str; b_nodes : list node; b_ws2 : ws }.
Record macro_def := { k_ws1 : ws; k_name : str; k_args : list str; k_nodes : list node; k_ws2 : ws }.
(** heritage.rs:39-46 *)
Record context := { c_nodes : list node; c_extends : option str; c_blocks : list (str * block_def);
                    c_macros : list (str * macro_def); c_imports : list (str * str) }.
Definition no_context : context := {| c_nodes := []; c_extends := None; c_blocks := []; c_macros := []; c_imports := [] |}.

(** Number of nodes and node lists, a bound on the work of the two loops below. *)
Fixpoint node_size (n : node) : nat :=
  let sum := fix sum (l : list node) : nat := match l with [] => O | n :: l' => (node_size n + sum l')%nat end in
  S match n with
    | NIf _ cs => (fix f (l : list cond) : nat := match l with [] => O | Cond _ _ ns :: l' => S (sum ns + f l') end) cs
    | NMatch _ _ arms _ => (fix f (l : list when_) : nat := match l with [] => O | When _ _ ns :: l' => S (sum ns + f l') end) arms
    | NLoop _ _ _ _ body _ els _ => S (S (sum body + sum els))
    | NBlockDef _ _ ns _ | NMacro _ _ _ ns _ | NFilterBlock _ _ _ ns _ => S (sum ns)
    | _ => O
    end.
Fixpoint nodes_size (l : list node) : nat := match l with [] => O | n :: l' => (node_size n + nodes_size l')%nat end.

Section Context.
  (** [config.find_template(path, Some(start_at))] (config.rs; [Config.find_template]) *)
  Variable find : str -> str -> res str.

  (** heritage.rs:62-102: the body of the inner loop: what a node adds to the context and the node lists it pushes (the last
      pushed is popped first, so the new ones are put in front in reverse order). *)
  Definition context_node (path : str) (top : bool) (n : node) (c : context) : res (context * list (list node)) :=
    match n with
    | NExtends p =>
        if top then
          match c_extends c with
          | Some _ => Err (lit "multiple extend blocks found")
          | None => let! q := find p path in
                    Ok ({| c_nodes := c_nodes c; c_extends := Some q; c_blocks := c_blocks c; c_macros := c_macros c; c_imports := c_imports c |}, [])
          end
        else Err (lit "extends, macro or import blocks not allowed below top level")
    | NMacro w1 name args ns w2 =>
        if top then
          Ok ({| c_nodes := c_nodes c; c_extends := c_extends c; c_blocks := c_blocks c;
                 c_macros := put name {| k_ws1 := w1; k_name := name; k_args := args; k_nodes := ns; k_ws2 := w2 |} (c_macros c);
                 c_imports := c_imports c |}, [])
        else Err (lit "extends, macro or import blocks not allowed below top level")
    | NImport _ p scope =>
        if top then
          let! q := find p path in
          Ok ({| c_nodes := c_nodes c; c_extends := c_extends c; c_blocks := c_blocks c; c_macros := c_macros c;
                 c_imports := put scope q (c_imports c) |}, [])
        else Err (lit "extends, macro or import blocks not allowed below top level")
    | NBlockDef w1 name ns w2 =>
        Ok ({| c_nodes := c_nodes c; c_extends := c_extends c;
               c_blocks := put name {| b_ws1 := w1; b_name := name; b_nodes := ns; b_ws2 := w2 |} (c_blocks c);
               c_macros := c_macros c; c_imports := c_imports c |}, [ns])
    | NIf _ cs => Ok (c, map (fun x => match x with Cond _ _ ns => ns end) cs)
    | NLoop _ _ _ _ body _ els _ => Ok (c, [body; els])
    | NMatch _ _ arms _ => Ok (c, map (fun x => match x with When _ _ ns => ns end) arms)
    | _ => Ok (c, [])
    end.
  (** heritage.rs:61-104: the two loops; [stack] has the list to be popped next in front. *)
  Fixpoint context_nodes (path : str) (top : bool) (ns : list node) (c : context) (stack : list (list node))
    : res (context * list (list node)) :=
    match ns with
    | [] => Ok (c, stack)
    | n :: ns' => let! (c', more) := context_node path top n c in context_nodes path top ns' c' (rev more ++ stack)
    end.
  Fixpoint context_loop (fuel : nat) (path : str) (top : bool) (stack : list (list node)) (c : context) : gres context :=
    match stack with
    | [] => GOk c
    | ns :: stack' =>
        match fuel with
        | O => GFuel
        | S f => let* (c', stack2) := of_res (context_nodes path top ns c stack') in context_loop f path false stack2 c'
        end
    end.
  (** heritage.rs:49-113: [Context::new].  A list is popped at most once per node (and once at the start). *)
  Definition context_new (path : str) (nodes : list node) : gres context :=
    context_loop (S (nodes_size nodes)) path true [nodes]
      {| c_nodes := nodes; c_extends := None; c_blocks := []; c_macros := []; c_imports := [] |}.
End Context.

(** heritage.rs:10-13, 37.  The entries of [blocks] are lists from the most derived definition up. *)
Record heritage := { h_root : context; h_blocks : list (str * list (context * block_def)) }.
Definition push_block (c : context) (x : str * block_def) (bs : list (str * list (context * block_def))) :=
  put (fst x) (match get (fst x) bs with Some l => l ++ [(c, snd x)] | None => [(c, snd x)] end) bs.
(** heritage.rs:16-34: [Heritage::new]; the loop has no bound of its own. *)
Fixpoint heritage_loop (fuel : nat) (contexts : list (str * context)) (c : context) (bs : list (str * list (context * block_def)))
  : gres heritage :=
  match c_extends c with
  | None => GOk {| h_root := c; h_blocks := bs |}
  | Some path =>
      match fuel with
      | O => GFuel
      | S f => match get path contexts with
               | None => GPanic                                    (* contexts[path] *)
               | Some c' => heritage_loop f contexts c' (fold_left (fun bs x => push_block c' x bs) (c_blocks c') bs)
               end
      end
  end.
Definition heritage_new (fuel : nat) (contexts : list (str * context)) (c : context) : gres heritage :=
  heritage_loop fuel contexts c (map (fun x => (fst x, [(c, snd x)])) (c_blocks c)).

(** ** find_used_templates (input.rs:109-203) *)
Section Used.
  Variable find : str -> str -> res str.
  (** [get_template_source] (input.rs) and [Parsed::new] with the syntax of the template. *)
  Variable load : str -> res str.
  Variable parse : str -> res (list node).

  (** [map], [check] (last pushed first) and [dependency_graph].  A dummy entry (input.rs:134) has no nodes. *)
  Record fstate := { u_map : list (str * list node); u_check : list (str * str); u_graph : list (str * str) }.
  (** input.rs:131-139: [add_to_check] *)
  Definition add_to_check (p : str) (st : fstate) : res fstate :=
    match get p (u_map st) with
    | Some _ => Ok st
    | None => let! src := load p in
              Ok {| u_map := put p [] (u_map st); u_check := (p, src) :: u_check st; u_graph := u_graph st |}
    end.
  Definition cyclic : str := lit "cyclic dependency in graph".
  Definition edge_eqb (a b : str * str) : bool := str_eqb (fst a) (fst b) && str_eqb (snd a) (snd b).
  (** input.rs:141-197: one node: the new state and the node lists pushed *)
  Definition used_node (path : str) (top : bool) (n : node) (st : fstate) : res (fstate * list (list node)) :=
    match n with
    | NExtends p =>
        if top then
          let! q := find p path in
          if str_eqb path q then Err cyclic
          else if existsb (edge_eqb (path, q)) (u_graph st) then Err cyclic
          else let! st' := add_to_check q {| u_map := u_map st; u_check := u_check st; u_graph := u_graph st ++ [(path, q)] |} in
               Ok (st', [])
        else Ok (st, [])
    | NMacro _ _ _ ns _ => Ok (st, if top then [ns] else [])
    | NImport _ p _ => if top then let! q := find p path in let! st' := add_to_check q st in Ok (st', []) else Ok (st, [])
    | NInclude _ p => let! q := find p path in let! st' := add_to_check q st in Ok (st', [])
    | NFilterBlock _ _ _ ns _ | NBlockDef _ _ ns _ => Ok (st, [ns])
    | NIf _ cs => Ok (st, map (fun x => match x with Cond _ _ ns => ns end) cs)
    | NLoop _ _ _ _ body _ els _ => Ok (st, [body; els])
    | NMatch _ _ arms _ => Ok (st, map (fun x => match x with When _ _ ns => ns end) arms)
    | _ => Ok (st, [])
    end.
  Fixpoint used_nodes (path : str) (top : bool) (ns : list node) (st : fstate) (stack : list (list node))
    : res (fstate * list (list node)) :=
    match ns with
    | [] => Ok (st, stack)
    | n :: ns' => let! (st', more) := used_node path top n st in used_nodes path top ns' st' (rev more ++ stack)
    end.
  (** input.rs:126-200: the loop over [nested] *)
  Fixpoint used_file (fuel : nat) (path : str) (top : bool) (stack : list (list node)) (st : fstate) : gres fstate :=
    match stack with
    | [] => GOk st
    | ns :: stack' =>
        match fuel with
        | O => GFuel
        | S f => let* (st', stack2) := of_res (used_nodes path top ns st stack') in used_file f path false stack2 st'
        end
    end.
  (** input.rs:121-202: the loop over [check] *)
  Fixpoint used_loop (fuel : nat) (st : fstate) : gres (list (str * list node)) :=
    match u_check st with
    | [] => GOk (u_map st)
    | (path, src) :: check =>
        match fuel with
        | O => GFuel
        | S f =>
            let* nodes := of_res (parse src) in
            let* st' := used_file (S (nodes_size nodes)) path true [nodes]
                          {| u_map := u_map st; u_check := check; u_graph := u_graph st |} in
            used_loop f {| u_map := put path nodes (u_map st'); u_check := u_check st'; u_graph := u_graph st' |}
        end
    end.
  (** input.rs:109-203; [src] is the source of the template itself (given inline or loaded). *)
  Definition find_used_templates (fuel : nat) (path src : str) : gres (list (str * list node)) :=
    used_loop fuel {| u_map := []; u_check := [(path, src)]; u_graph := [] |}.
End Used.
