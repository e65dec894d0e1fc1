(** * The derive macro with the hash maps in any order.  std's HashMap is iterated in an order that differs from run to run.  The
    maps iterated are [templates] (lib.rs:65), [contexts] (generator.rs:94), and the blocks, macros and imports of a context
    (heritage.rs:21, 28; generator.rs:798-811 and 953-966).  The other maps (generator.rs:610, 1060, 1924) are only looked up in. *)
From Verif Require Import Base Ws Config Ast GenExpr Heritage Gen GenText Derive.
From Coq Require Import Permutation.
Local Open Scope N_scope.

(** A map, and the same map in another order *)
Definition reordered {A} (l l' : list (str * A)) : Prop := NoDup (map fst l) /\ Permutation l l'.
(** A context (heritage.rs:39-46) with its maps in another order *)
Definition same_context (c c' : context) : Prop :=
  c_nodes c = c_nodes c' /\ c_extends c = c_extends c' /\ reordered (c_blocks c) (c_blocks c') /\
  reordered (c_macros c) (c_macros c') /\ reordered (c_imports c) (c_imports c').
(** The map of the contexts, in another order inside and out *)
Definition same_contexts (cs cs' : list (str * context)) : Prop :=
  exists m, reordered cs m /\ Forall2 (fun x y => fst x = fst y /\ same_context (snd x) (snd y)) m cs'.

(** lib.rs:69-89: [build_template] from the contexts on.  As in Gen.v, the code is a list of statements and the size hint. *)
Definition build_from (inp : ginput) (find : str -> str -> res str) (fuel : nat) (contexts : list (str * context)) : gres (list stmt * N) :=
  match get (f_path inp) contexts with
  | None => GPanic
  | Some ctx =>
      let* her := match c_blocks ctx, c_extends ctx with
                  | [], None => GOk None
                  | _, _ => let* h := heritage_new fuel contexts ctx in
                            match f_block inp with
                            | Some b => match get b (h_blocks h) with None => GErr (lit "cannot find block") | Some _ => GOk (Some h) end
                            | None => GOk (Some h)
                            end
                  end in
      impl_template inp contexts find fuel her ctx
  end.
(** lib.rs:55-94: the text [s] is what [build_template] may return.  As in Derive.v, but the contexts are built in any order [ts] of the
    templates and are themselves in any order [cs]. *)
Definition may_build (w : outside) (files depth : nat) (d : item) (s : str) : Prop :=
  exists a toml cfg i src templates ts made cs paths code size,
    template_args_new (d_attrs d) = Ok a /\ read_config_file w (a_config a) = Ok toml /\ config_of w toml (a_whitespace a) = Ok cfg /\
    input_of w d cfg a = Ok i /\ match i_source i with SSource s => Ok s | SPath _ => load w (i_path i) end = Ok src /\
    find_used_templates (find_from w cfg) (load w) (parse_text w (i_syntax i)) files (i_path i) src = GOk templates /\
    reordered templates ts /\ build_contexts (find_from w cfg) ts = GOk made /\ same_contexts made cs /\
    canonical_paths w (is_inline (i_source i)) (i_path i) (map fst cs) = Ok paths /\
    build_from (ginput_of w cfg i) (find_from w cfg) depth cs = GOk (code, size) /\
    s = source_text (o_plain w) (frame_of w d a i paths) code size.
(** The same as a function, for orders that depend on the map: [order] is applied to the templates. *)
Definition build_ordered (order : list (str * list node) -> list (str * list node)) (w : outside) (files depth : nat) (d : item) : gres str :=
  let* a := of_res (template_args_new (d_attrs d)) in
  let* toml := of_res (read_config_file w (a_config a)) in
  let* cfg := of_res (config_of w toml (a_whitespace a)) in
  let* i := of_res (input_of w d cfg a) in
  let* src := of_res (match i_source i with SSource s => Ok s | SPath _ => load w (i_path i) end) in
  let* templates := find_used_templates (find_from w cfg) (load w) (parse_text w (i_syntax i)) files (i_path i) src in
  let* contexts := build_contexts (find_from w cfg) (order templates) in
  let* paths := of_res (canonical_paths w (is_inline (i_source i)) (i_path i) (map fst contexts)) in
  let* (code, size) := build_from (ginput_of w cfg i) (find_from w cfg) depth contexts in
  GOk (source_text (o_plain w) (frame_of w d a i paths) code size).
