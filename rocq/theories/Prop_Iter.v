(** * What a for loop iterates over: C59. *)
From Coq Require Import ZArith.
From Verif Require Import Base Ws Ast GenExpr Heritage Gen HeritageSpec HeritageFacts SimExpr TestWorld.
Local Open Scope N_scope.

(** ** Specification *)
(** Parts of the template value, which rendering only has a reference to: fields of [self], their fields and their elements,
    with or without parentheses. *)
Inductive part_of_self : rexpr -> Prop :=
| ps_field x : part_of_self (RField (RName (lit "self")) x)
| ps_more e x : part_of_self e -> part_of_self (RField e x)
| ps_index e i : part_of_self e -> part_of_self (RIndex e i)
| ps_group e : part_of_self e -> part_of_self (RGrp e).
(** The same without parentheses. *)
Inductive bare_part : rexpr -> Prop :=
| bp_field x : bare_part (RField (RName (lit "self")) x)
| bp_more e x : bare_part e -> bare_part (RField e x)
| bp_index e i : bare_part e -> bare_part (RIndex e i).
(** The loops of the generated code: what is iterated over, and how. *)
Fixpoint loops_in (s : stmt) : list (rexpr * iter_kind) :=
  match s with
  | SIf branches => concat (map (fun b => match b with (_, body) => concat (map loops_in body) end) branches)
  | SMatch _ arms => concat (map (fun a => match a with (_, body) => concat (map loops_in body) end) arms)
  | SLoop _ it how _ _ body els tail =>
      (it, how) :: concat (map loops_in body) ++ concat (map loops_in els) ++ concat (map loops_in tail)
  | SBlock b => concat (map loops_in b)
  | _ => []
  end.
Definition all_loops (code : list stmt) : list (rexpr * iter_kind) := concat (map loops_in code).
Definition moves (l : rexpr * iter_kind) : Prop := part_of_self (fst l) /\ (snd l = IterInto \/ snd l = IterRange).

(** ** Proofs *)
Lemma starts_with_app_l p s t : starts_with p s = true -> starts_with p (s ++ t) = true.
Proof. intros H. apply starts_with_iff in H as [r ->]. apply starts_with_iff. exists (r ++ t). symmetry. exact (app_assoc p r t). Qed.
Lemma bare_text r : bare_part r -> starts_with (lit "self.") (show r) = true.
Proof.
  induction 1 as [x|e x _ IH|e i _ IH].
  - reflexivity.
  - change (show (RField e x)) with (show e ++ lit "." ++ x). apply starts_with_app_l, IH.
  - change (show (RIndex e i)) with (show e ++ lit "[" ++ show i ++ lit "]"). apply starts_with_app_l, IH.
Qed.
Lemma loop_stmt inp contexts find expand her ctx lv w1 var it cnd body w2 els w3 st code z st' :
  handle_node inp contexts find expand her ctx lv (NLoop w1 var it cnd body w2 els w3) st = GOk (code, z, st') -> o_discard st' = false ->
  exists before he r flt p cb ce ct, code = before ++ [SLoop he r (iter_how it r) flt p cb ce ct] /\
    visit_expr_root inp (s_locals (push_locals (do_handle_ws inp w1 st))) it = Ok r.
Proof.
  intros E HD. cbn [handle_node] in E. unfold write_loop in E. cbv beta iota zeta in E.
  apply gbind_inv in E as (r & ER & E). apply of_res_inv in ER. apply gbind_inv in E as ([[before z0] s0] & _ & E). cbv beta iota zeta in E.
  apply gbind_inv in E as (? & _ & E). apply gbind_inv in E as (? & _ & E). apply gbind_inv in E as ([flt s1] & _ & E). cbv beta iota zeta in E.
  apply gbind_inv in E as (? & _ & E). apply gbind_inv in E as ([p m] & _ & E). cbv beta iota zeta in E.
  apply gbind_inv in E as (? & _ & E). apply gbind_inv in E as ([[c1 z1] s2] & _ & E). cbv beta iota zeta in E.
  apply gbind_inv in E as ([[c1' z1'] s3] & _ & E). cbv beta iota zeta in E. apply gbind_inv in E as (s4 & _ & E). apply gbind_inv in E as (s5 & _ & E).
  apply gbind_inv in E as ([[[celse ctail] z2] s6] & _ & E). cbv beta iota zeta in E.
  apply gbind_inv in E as (s11 & _ & E). apply gbind_inv in E as (s12 & _ & E). injection E as <- _ <-.
  unfold emit_around. rewrite HD. eexists _, _, _, _, _, _, _, _. split; [reflexivity|exact ER].
Qed.
Lemma index_ref inp m a b r : visit_expr_root inp m (Index a b) = Ok r -> exists e, r = RRef e.
Proof.
  intros E. change (v_sub inp m (Index a b) = Ok r) in E. apply v_sub_Ok in E as [wr E]. change (v_plain (let! x := v_sub inp m a in let! y := v_sub inp m b in Ok (RRef (RIndex x y))) = Ok (r, wr)) in E.
  inv_ok E. eauto.
Qed.

(** C59.  A for loop at any place of a template: an attribute, or anything that stands for a part of the template value, is
    iterated through a reference; an element (whose code begins with [&]) likewise;
    ranges as they are; elements of an array through [iter]; results of calls by value.  Full
    statement: no loop of the generated code moves.  What is missing: parentheses, for which it is false. *)
Theorem C59_iteration_partial inp contexts find expand her ctx lv w1 var it cnd body w2 els w3 st code z st' :
  handle_node inp contexts find expand her ctx lv (NLoop w1 var it cnd body w2 els w3) st = GOk (code, z, st') -> o_discard st' = false ->
  exists before he r how flt p cb ce ct, code = before ++ [SLoop he r how flt p cb ce ct] /\
    visit_expr_root inp (s_locals (push_locals (do_handle_ws inp w1 st))) it = Ok r /\
    match it with
    | Range _ _ _ => how = IterRange
    | Arr _ => how = IterArray
    | Call _ _ => how = IterInto
    | Index _ _ => how = IterInto /\ exists e, r = RRef e
    | Attr _ _ => how = IterRefInto
    | _ => bare_part r -> how = IterRefInto
    end.
Proof.
  intros E HD. destruct (loop_stmt _ _ _ _ _ _ _ _ _ _ _ _ _ _ _ _ _ _ _ E HD) as (before & he & r & flt & p & cb & ce & ct & -> & V).
  exists before, he, r, (iter_how it r), flt, p, cb, ce, ct. split; [reflexivity|]. split; [exact V|].
  destruct it; try reflexivity; try exact (conj eq_refl (index_ref _ _ _ _ _ V)); try (intros B; unfold iter_how; rewrite (bare_text _ B); reflexivity). unfold iter_how. destruct (starts_with _ _); reflexivity.
Qed.
Print Assumptions C59_iteration_partial.

(** C59.  A field in parentheses is moved, and so is what a macro gets that begins with parentheses. *)
Definition part_b : rexpr -> bool := fix go e :=
  match e with
  | RField (RName s) _ => str_eqb s (lit "self")
  | RField e _ | RIndex e _ | RGrp e => go e
  | _ => false
  end.
Lemma part_ok e : part_b e = true -> part_of_self e.
Proof.
  induction e; cbn [part_b]; try discriminate.
  - intros H. destruct e; try (apply ps_more, IHe; exact H). apply str_eqb_eq in H. subst. constructor.
  - intros H. apply ps_index, IHe1, H.
  - intros H. apply ps_group, IHe, H.
Qed.
Definition moves_b (l : rexpr * iter_kind) : bool := part_b (fst l) && match snd l with IterInto | IterRange => true | _ => false end.
Definition some_move (d : dir) : bool := match t_code d None main with GOk (code, _) => existsb moves_b (all_loops code) | _ => false end.
Lemma some_move_ok d : some_move d = true -> exists code z l, t_code d None main = GOk (code, z) /\ In l (all_loops code) /\ moves l.
Proof.
  unfold some_move. destruct (t_code d None main) as [[code z]| | |]; try discriminate. intros H. apply existsb_exists in H as (l & I & B). exists code, z, l.
  split; [reflexivity|]. split; [exact I|]. unfold moves_b in B. apply andb_prop in B as [B1 B2]. split; [apply part_ok, B1|]. destruct (snd l); auto; discriminate B2.
Qed.
Theorem C59_iteration_refuted : exists d code z l, t_code d None main = GOk (code, z) /\ In l (all_loops code) /\ moves l.
Proof. exists (one (lit "{% for x in (items) %}{{ x }}{% endfor %}")). apply some_move_ok. vm_compute. reflexivity. Qed.
Print Assumptions C59_iteration_refuted.
Example C59_macro_argument : some_move (one (lit "{% macro m(l) %}{% for x in l %}{{ x }}{% endfor %}{% endmacro %}{% call m((user).items) %}")) = true := ltac:(vm_compute; reflexivity).
(** Loops over fields, attributes of a local variable, a variable of a let, a field given to a macro, a range, an array, a call. *)
Example C59_example : match t_code (one (lit "{% macro m(l) %}{% for x in l %}{{ x }}{% endfor %}{% endmacro %}{% for a in items %}{% for b in a.more %}{{ b }}{% endfor %}{% endfor %}{% call m(user.items) %}{% for i in 0..n %}{{ i }}{% endfor %}{% for i in [1, 2] %}{{ i }}{% endfor %}{% for i in items.iter() %}{{ i }}{% endfor %}{% for i in rows[1] %}{{ i }}{% endfor %}")) None main with
  | GOk (code, _) => map (fun l => (show (fst l), snd l)) (all_loops code) =
      [(lit "self.items", IterRefInto); (lit "a.more", IterRefInto); (lit "self.user.items", IterRefInto); (lit "0..self.n", IterRange); (lit "[1, 2]", IterArray); (lit "self.items.iter()", IterInto); (lit "&self.rows[1]", IterInto)]
  | _ => False
  end := ltac:(vm_compute; reflexivity).
