(** * The text of a variable.
    [visit_var] normalises the text of what a name resolves to (generator.rs:1656-1664); the model normalises names only.
    Both agree, because what a name can resolve to is a name, a field or something in parentheses. *)
From Coq Require Import Lia.
From Verif Require Import Base Ws Ast Ident IdentFacts GenExpr Heritage Gen HeritageFacts SimExpr.
Local Open Scope N_scope.

Definition shaped (r : rexpr) : Prop := match r with RName _ | RField _ _ | RGrp _ => True | _ => False end.
Definition shaped_aliases (m : chain) : Prop := forall k meta r, ch_get m k = Some meta -> l_refs meta = Some r -> shaped r.
Definition kw_chars : bool := forallb (fun k => forallb (fun c => negb (c =? 46) && negb (c =? 40)) k) rust_keywords.
Lemma not_keyword s c : c = 46 \/ c = 40 -> In c s -> normalize_identifier s = s.
Proof.
  intros Hc Hs. apply normalize_other. intros Hk.
  assert (K : kw_chars = true) by (vm_compute; reflexivity). unfold kw_chars in K. rewrite forallb_forall in K.
  specialize (K _ Hk). rewrite forallb_forall in K. specialize (K _ Hs). destruct Hc; subst; discriminate K.
Qed.
Theorem normalize_show r : shaped r -> normalize_identifier (show r) = show (normalize_text r).
Proof.
  destruct r; cbn [shaped]; intros H; try contradiction; cbn [normalize_text show].
  - reflexivity.
  - apply (not_keyword _ 46); [auto|]. apply in_or_app. right. left. reflexivity.
  - apply (not_keyword _ 40); [auto|]. left. reflexivity.
Qed.
Lemma shaped_resolve m x : shaped_aliases m -> shaped (ch_resolve_or_self m x).
Proof.
  intros H. unfold ch_resolve_or_self, ch_resolve. destruct (ch_get m (normalize_identifier x)) as [meta|] eqn:E; [|exact I].
  destruct (l_refs meta) as [r|] eqn:R; [|exact I]. exact (H _ _ _ E R).
Qed.
Theorem visit_var_text m s : shaped_aliases m -> show (visit_var m s) =
  if str_eqb s (lit "self") then s else normalize_identifier (show (ch_resolve_or_self m s)).
Proof.
  intros H. unfold visit_var. destruct (str_eqb s (lit "self")); [reflexivity|]. symmetry. apply normalize_show, shaped_resolve, H.
Qed.

(** The scopes the generator builds have such aliases only: the operations on scopes, and the arguments of a macro. *)
Lemma shaped_empty : shaped_aliases ch_empty.
Proof. intros k meta r E. discriminate E. Qed.
Lemma shaped_insert m k v m' : shaped_aliases m -> (forall r, l_refs v = Some r -> shaped r) -> ch_insert m k v = Ok m' -> shaped_aliases m'.
Proof.
  intros H HV E. destruct m as [p [|s ss]]; [discriminate E|]. cbn [ch_insert] in E. injection E as <-.
  intros k0 meta r G R. cbn [ch_get lfind lscope_get] in G. destruct (str_eqb k0 k).
  - injection G as <-. exact (HV r R).
  - exact (H k0 meta r G R).
Qed.
Lemma shaped_push m : shaped_aliases m -> shaped_aliases (ch_push m).
Proof. intros H k meta r G. destruct m as [p ss]. exact (H k meta r G). Qed.
Lemma shaped_with_parent m : shaped_aliases m -> shaped_aliases (ch_with_parent m).
Proof. intros H k meta r G. exact (H k meta r G). Qed.
Lemma shaped_attr inp m obj a r wr : visit_expr inp m (Attr obj a) = Ok (r, wr) -> shaped r.
Proof.
  intros E. cbn [visit_expr] in E. destruct (var_loop obj).
  - change (v_plain (loop_attr a) = Ok (r, wr)) in E. inv_ok E. unfold loop_attr in E.
    repeat match type of E with (if ?b then _ else _) = _ => destruct b end; inv_ok E; try exact I. discriminate E.
  - change (v_plain (let! r := v_sub inp m obj in Ok (RField r (normalize_identifier a))) = Ok (r, wr)) in E. inv_ok E. exact I.
Qed.
Theorem shaped_bind_args inp named args : forall params i pos m m' ns vs,
  shaped_aliases m -> bind_args inp named args params i pos m = Ok (m', ns, vs) -> shaped_aliases m'.
Proof.
  induction params as [|p params IH]; intros i pos m m' ns vs H E; cbn [bind_args] in E.
  { injection E as <- _ _. exact H. }
  apply rbind_inv in E as ([e pos'] & E1 & E). clear E1.
  assert (BV : forall E0 : (let! r := visit_expr_root inp m e in
          let! m' := ch_insert m p m_default in
          let! (m'', names, values) := bind_args inp named args params (S i) pos' m' in
          Ok (m'', p :: names, r :: values)) = Ok (m', ns, vs), shaped_aliases m').
  { intros E0. apply rbind_inv in E0 as (r & _ & E0). apply rbind_inv in E0 as (m1 & E1 & E0). apply rbind_inv in E0 as ([[m2 ns2] vs2] & E2 & E0).
    injection E0 as <- _ _. refine (IH _ _ _ _ _ _ (shaped_insert _ _ _ _ H _ E1) E2). intros r0 R. discriminate R. }
  destruct e; try exact (BV E); clear BV.
  - destruct (str_eqb s (lit "self")).
    + apply rbind_inv in E as (r & _ & E). apply rbind_inv in E as (m1 & E1 & E). apply rbind_inv in E as ([[m2 ns2] vs2] & E2 & E).
      injection E as <- _ _. refine (IH _ _ _ _ _ _ (shaped_insert _ _ _ _ H _ E1) E2). intros r0 R. discriminate R.
    + apply rbind_inv in E as (m1 & E1 & E). refine (IH _ _ _ _ _ _ (shaped_insert _ _ _ _ H _ E1) E).
      intros r R. injection R as <-. apply shaped_resolve, H.
  - apply rbind_inv in E as ([r wr] & E0 & E). apply rbind_inv in E as (m1 & E1 & E).
    refine (IH _ _ _ _ _ _ (shaped_insert _ _ _ _ H _ E1) E). intros r0 R. injection R as <-.
    destruct (ch_resolve m (show r)) as [r'|] eqn:Q; [|exact (shaped_attr _ _ _ _ _ _ E0)].
    pose proof (shaped_resolve m (show r) H) as S. unfold ch_resolve_or_self in S. rewrite Q in S. exact S.
Qed.
