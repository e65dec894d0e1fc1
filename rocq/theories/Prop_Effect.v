(** * How often and in which order expressions are evaluated: C42, C56.  Evaluation with effects is in Effect.v. *)
From Coq Require Import ZArith.
From Verif Require Import Base Ws Config Nom Ast Lex ParseExpr ParseNode ParseTests Ident GenExpr Heritage Gen Sem RefSem HeritageSpec HeritageFacts FlushFacts Effect EffectFacts TestWorld.
Local Open Scope N_scope.

(** C42.  Whatever the calls do: the text written for a run of text and expressions, and all effects, are those of evaluating
    every expression where it stands, as often as it stands there.  Partial: filters of the user must not occur in an
    expression without calls (they are taken for call-free, see C42_custom_filter_refuted), and no parameter of a macro may
    stand for an expression with a call. *)
Theorem C42_merging_partial w T (x : effects w T) en st inp m ws named z parts named' :
  quiet_aliases m ->
  (forall e, In (WExpr e) ws -> has_user_filter e = true -> has_call e = true) ->
  prepare_format inp m ws named = Ok (z, parts, named') ->
  exists qs, Forall2 (piece_of inp m) ws qs /\ forall t, xparts w T x en st parts t = xpieces w T x en st qs t.
Proof.
  intros Hm HW E. eapply prepare_format_eff; [exact Hm| |exact E].
  apply Forall_forall. intros i Hi. destruct i as [s|e|r wr]; try exact I.
  destruct (has_user_filter e) eqn:U; [left; exact (HW e Hi U)|right; reflexivity].
Qed.
Print Assumptions C42_merging_partial.

(** C42.  Only expressions without a call are ever candidates for merging. *)
Theorem C42_candidates e : is_cacheable e = true <-> has_call e = false.
Proof. rewrite cacheable_no_call. apply negb_true_iff. Qed.
Print Assumptions C42_candidates.


(** ** Templates without tags, but for comments, raw text and definitions that put out nothing *)
Definition tagless (n : node) : bool :=
  match n with NLit _ | NComment _ _ | NExpr _ _ | NRaw _ _ _ | NMacro _ _ _ _ _ | NImport _ _ _ => true | _ => false end.
(** Their expressions, in the order in which they stand in the template *)
Fixpoint shown_exprs (l : list node) : list expr :=
  match l with [] => [] | NExpr _ e :: l' => e :: shown_exprs l' | _ :: l' => shown_exprs l' end.
(** The expressions among the pieces *)
Fixpoint evaluated (l : list (str + rexpr)) : list rexpr :=
  match l with [] => [] | inl _ :: l' => evaluated l' | inr r :: l' => r :: evaluated l' end.
(** The code for a single expression *)
Definition code_for (inp : ginput) (e : expr) (r : rexpr) : Prop :=
  exists r0 wr, visit_expr inp ch_empty e = Ok (r0, wr) /\ r = if wr then r0 else RMarkup (f_escaper inp) r0.
(** Running writes one after the other; [Unset] for any other statement *)
Fixpoint xwrites (w : world) (T : Type) (x : effects w T) (code : list stmt) : eff T str :=
  let write c l := ebnd T c (fun s => ebnd T (xwrites w T x l) (fun s' => pure T (Done (s ++ s')))) in
  match code with
  | [] => pure T (Done [])
  | SWriteStr s :: l => write (pure T (Done s)) l
  | SWriteFmt f a :: l => write (xformat w T x [] [] f a) l
  | _ => pure T Unset
  end.

Fixpoint wexprs (ws : list writable) : list expr :=
  match ws with [] => [] | WExpr e :: l => e :: wexprs l | _ :: l => wexprs l end.
Definition no_gen (ws : list writable) : Prop := forall r wr, ~ In (WGen r wr) ws.
Lemma wexprs_app a b : wexprs (a ++ b) = wexprs a ++ wexprs b.
Proof. induction a as [|[s|e|r wr] a IH]; cbn; rewrite ?IH; reflexivity. Qed.
Lemma wexprs_lits ls : wexprs (map WLit ls) = [].
Proof. induction ls; cbn; auto. Qed.
Lemma no_gen_lits ls : no_gen (map WLit ls).
Proof. intros r wr H. apply in_map_iff in H as (a & Ha & _). discriminate Ha. Qed.
Lemma no_gen_app a b : no_gen a -> no_gen b -> no_gen (a ++ b).
Proof. intros H1 H2 r wr H. apply in_app_iff in H as [H|H]; [exact (H1 _ _ H)|exact (H2 _ _ H)]. Qed.
(** What such nodes leave untouched *)
Record steady (es : list expr) (st st' : gst) : Prop := {
  sd_locals : s_locals st' = s_locals st; sd_discard : s_discard st' = s_discard st; sd_odiscard : o_discard st' = o_discard st;
  sd_exprs : s_discard st = false -> wexprs (s_buf st') = wexprs (s_buf st) ++ es;
  sd_gen : no_gen (s_buf st) -> no_gen (s_buf st')
}.
Lemma steady_refl st : steady [] st st.
Proof. constructor; auto. intros _. symmetry. apply app_nil_r. Qed.
Lemma steady_trans a b s1 s2 s3 : steady a s1 s2 -> steady b s2 s3 -> steady (a ++ b) s1 s3.
Proof.
  intros [A1 A2 A3 A4 A5] [B1 B2 B3 B4 B5]. constructor; try congruence; auto.
  intros D. rewrite B4 by congruence. rewrite A4 by exact D. symmetry. apply app_assoc.
Qed.
Lemma steady_ws w st : steady [] st (set_ws w st).
Proof. constructor; auto. intros _. symmetry. apply app_nil_r. Qed.
Lemma steady_push ws st : no_gen ws -> steady (wexprs ws) st (push ws st).
Proof.
  intros H. unfold push. destruct (s_discard st) eqn:D; constructor; auto; cbn; try congruence.
  - intros _. apply wexprs_app.
  - intros K. apply no_gen_app; assumption.
Qed.
Lemma steady_lits ls st : steady [] st (push_lits ls st).
Proof. unfold push_lits. rewrite <- (wexprs_lits ls). apply steady_push, no_gen_lits. Qed.
Lemma steady_flush inp l st : steady [] st (do_flush_ws inp l st).
Proof. unfold do_flush_ws. destruct (flush_ws (f_ws inp) l (s_ws st)) as [out w]. exact (steady_trans [] [] _ _ _ (steady_ws w st) (steady_lits out _)). Qed.
Lemma steady_handle inp w st : steady [] st (do_handle_ws inp w st).
Proof. exact (steady_trans [] [] _ _ _ (steady_flush inp (ws_l w) st) (steady_ws _ _)). Qed.
Lemma steady_visit_lit l st st' : do_visit_lit l st = GOk st' -> steady [] st st'.
Proof.
  unfold do_visit_lit. destruct (visit_lit l (s_ws st)) as [[out w]|]; [|discriminate]. intros E. injection E as <-.
  exact (steady_trans [] [] _ _ _ (steady_ws w st) (steady_lits out _)).
Qed.
Section Tagless.
  Variables (inp : ginput) (contexts : list (str * context)) (find : str -> str -> res str).
  Variables (expand : option heritage -> context -> list node -> level -> gst -> gres gen) (her : option heritage) (ctx : context).
  Lemma tagless_node n st c z st' : tagless n = true -> handle_node inp contexts find expand her ctx LTop n st = GOk (c, z, st') ->
    c = [] /\ steady (shown_exprs [n]) st st'.
  Proof.
    intros HT E. destruct n; try discriminate HT; cbn [handle_node top_level] in E.
    - apply gbind_inv in E as (s1 & E1 & E). injection E as <- _ <-. split; [reflexivity|]. exact (steady_visit_lit _ _ _ E1).
    - injection E as <- _ <-. split; [reflexivity|]. apply steady_handle.
    - injection E as <- _ <-. split; [reflexivity|]. apply (steady_trans [] [e] _ _ _ (steady_handle inp w st)).
      apply (steady_push [WExpr e]). intros r wr [H|[]]. discriminate H.
    - injection E as <- _ <-. split; [reflexivity|]. apply steady_handle.
    - injection E as <- _ <-. split; [reflexivity|]. exact (steady_trans [] [] _ _ _ (steady_flush inp _ st) (steady_ws _ _)).
    - apply gbind_inv in E as (s1 & E1 & E). injection E as <- _ <-. split; [reflexivity|].
      exact (steady_trans [] [] _ _ _ (steady_handle inp w1 st) (steady_trans [] [] _ _ _ (steady_visit_lit _ _ _ E1) (steady_handle inp w2 s1))).
  Qed.
  Lemma tagless_list l : forallb tagless l = true -> forall st c z st',
    gen_list (handle_node inp contexts find expand her ctx LTop) l st = GOk (c, z, st') -> c = [] /\ steady (shown_exprs l) st st'.
  Proof.
    induction l as [|n l IH]; intros HT st c z st' E; cbn [gen_list] in E.
    - injection E as <- _ <-. split; [reflexivity|apply steady_refl].
    - cbn [forallb] in HT. apply andb_prop in HT as [H1 H2].
      apply gbind_inv in E as ([[c1 z1] s1] & E1 & E). apply gbind_inv in E as ([[c2 z2] s2] & E2 & E). injection E as <- _ <-.
      destruct (tagless_node _ _ _ _ _ H1 E1) as [-> S1]. destruct (IH H2 _ _ _ _ E2) as [-> S2]. split; [reflexivity|].
      replace (shown_exprs (n :: l)) with (shown_exprs [n] ++ shown_exprs l) by (destruct n; reflexivity).
      exact (steady_trans _ _ _ _ _ S1 S2).
  Qed.
End Tagless.
Lemma pieces_evaluated inp ws qs : no_gen ws -> Forall2 (piece_of inp ch_empty) ws qs -> Forall2 (code_for inp) (wexprs ws) (evaluated qs).
Proof.
  intros N H. induction H as [|i q ws qs H _ IH]; [constructor|].
  assert (N' : no_gen ws) by (intros r wr K; exact (N r wr (or_intror K))). specialize (IH N').
  destruct H as [s|e r wr E|r wr]; cbn [wexprs evaluated].
  - exact IH.
  - constructor; [|exact IH]. exists r, wr. auto.
  - exfalso. exact (N r wr (or_introl eq_refl)).
Qed.
Lemma ebnd_right T (c : eff T str) t : ebnd T c (fun s => ebnd T (pure T (Done [])) (fun s' => pure T (Done (s ++ s')))) t = c t.
Proof. unfold ebnd, pure. destruct (c t) as [[s| |] t']; rewrite ?app_nil_r; reflexivity. Qed.

Lemma context_of find templates contexts p c : build_contexts find templates = GOk contexts -> get p contexts = Some c ->
  exists ns, get p templates = Some ns /\ context_new find p ns = GOk c.
Proof.
  revert contexts. induction templates as [|[q ns] l IH]; intros contexts E G; cbn [build_contexts] in E.
  - injection E as <-. discriminate G.
  - apply gbind_inv in E as (c1 & E1 & E). apply gbind_inv in E as (cs & E2 & E). injection E as <-. cbn [get] in *.
    destruct (str_eqb p q) eqn:K.
    + injection G as <-. apply str_eqb_eq in K. subst q. eauto.
    + exact (IH _ E2 G).
Qed.
Lemma tagless_within l n : forallb tagless l = true -> within n l -> tagless n = true.
Proof.
  intros H W. destruct W as [l Hi|l m b Hm Hb _]; rewrite forallb_forall in H.
  - exact (H _ Hi).
  - specialize (H _ Hm). destruct m; try discriminate H; destruct Hb.
Qed.
Lemma xwrites_one w T (x : effects w T) inp st code z st' : o_discard st = false -> s_locals st = ch_empty ->
  (forall e, In e (wexprs (s_buf st)) -> has_user_filter e = true -> has_call e = true) -> no_gen (s_buf st) ->
  write_buf_writable inp st = GOk (code, z, st') ->
  exists qs, Forall2 (code_for inp) (wexprs (s_buf st)) (evaluated qs) /\ forall t, xwrites w T x code t = xpieces w T x [] [] qs t.
Proof.
  intros HO HL HU HG E. unfold write_buf_writable in E. rewrite HL in E. apply gbind_inv in E as ([[size parts] named] & E1 & E). apply of_res_inv in E1.
  apply (C42_merging_partial w T x [] []) in E1 as (qs & H1 & H2).
  - exists qs. split; [apply pieces_evaluated; assumption|]. intros t. rewrite <- H2. destruct parts as [|s|f a].
    + injection E as <- _ _. reflexivity.
    + apply gbind_inv in E as (u & _ & E). injection E as <- _ _. unfold emit. rewrite HO. cbn [xwrites xparts]. apply ebnd_right.
    + destruct (63 <=? o_indent st); [discriminate E|]. apply gbind_inv in E as (u & _ & E). injection E as <- _ _. unfold emit. rewrite HO.
      cbn [xwrites xparts]. apply ebnd_right.
  - intros k meta r K. discriminate K.
  - intros e He. apply HU. clear - He. induction (s_buf st) as [|[s|e'|r wr] l IH]; cbn in *; [destruct He| | |]; destruct He as [He|He]; try discriminate He; auto.
    injection He as <-. auto.
Qed.

(** C56.  A template without tags that put out anything besides text and expressions: every expression is evaluated once, in
    the order of the template, whatever the calls in them do. *)
Theorem C56_in_order_partial w T (x : effects w T) inp find fuel templates nodes code z :
  get (f_path inp) templates = Some nodes -> forallb tagless nodes = true -> f_block inp = None ->
  (forall e, In e (shown_exprs nodes) -> has_user_filter e = true -> has_call e = true) ->
  build_template inp find fuel templates = GOk (code, z) ->
  exists qs, Forall2 (code_for inp) (shown_exprs nodes) (evaluated qs) /\
    forall t, xwrites w T x code t = xpieces w T x [] [] qs t.
Proof.
  intros HN HT HB HU E. unfold build_template in E. apply gbind_inv in E as (contexts & E1 & E).
  destruct (get (f_path inp) contexts) as [c|] eqn:G; [|discriminate E].
  destruct (context_of _ _ _ _ _ E1 G) as (ns & K1 & K2). assert (ns = nodes) by congruence. subst ns.
  apply context_new_spec in K2 as (CN & _ & _ & C1 & _ & C2 & _).
  assert (CB : c_blocks c = []).
  { destruct (c_blocks c) as [|[k d] l] eqn:B; [reflexivity|]. destruct (C1 k d) as [W _]; [cbn [get]; rewrite str_eqb_refl; reflexivity|].
    apply (tagless_within _ _ HT) in W. discriminate W. }
  assert (CE : c_extends c = None).
  { destruct (c_extends c) as [p|]; [|reflexivity]. destruct (C2 p eq_refl) as (q & Hq & _). rewrite forallb_forall in HT. specialize (HT _ Hq). discriminate HT. }
  rewrite CB, CE in E. cbn [gbind] in E. unfold impl_template in E. rewrite CN in E.
  apply gbind_inv in E as ([[code' z'] st'] & E2 & E).
  assert (code' = code).
  { apply gbind_inv in E as (? & _ & E). apply gbind_inv in E as (? & _ & E). apply gbind_inv in E as (? & _ & E). apply gbind_inv in E as (? & _ & E).
    injection E as ->. reflexivity. }
  subst code'. clear E. destruct fuel as [|f]; [discriminate E2|]. cbn [handle] in E2. unfold handle_nodes in E2. cbn [top_level] in E2.
  apply gbind_inv in E2 as ([[c1 z1] s1] & E2 & E). destruct (tagless_list _ _ _ _ _ _ _ HT _ _ _ _ E2) as [-> S1].
  apply gbind_inv in E as ([[c2 z2] s2] & E3 & E). injection E as <- _ _. cbn [app].
  set (s1' := match next_ws (s_ws s1) with Some _ => do_flush_ws inp (Some (skip (s_ws s1))) s1 | None => s1 end) in *.
  assert (S2 : steady (shown_exprs nodes) (initial inp 2) s1').
  { unfold s1'. destruct (next_ws (s_ws s1)); [|exact S1]. rewrite <- (app_nil_r (shown_exprs nodes)). exact (steady_trans _ _ _ _ _ S1 (steady_flush _ _ _)). }
  destruct S2 as [L D O X N]. assert (D0 : s_discard (initial inp 2) = false) by (cbn; rewrite HB; reflexivity). specialize (X D0). cbn [initial s_buf wexprs app] in X.
  rewrite <- X in *. apply (xwrites_one _ _ x inp _ _ _ _ O L HU) in E3; [exact E3|]. apply N. intros r wr [].
Qed.
Print Assumptions C56_in_order_partial.

(** ** Examples: every call returns the number of calls before it. *)
Definition fields : cv := struct [(lit "a", CS (lit "F")); (lit "f", CF (lit "f")); (lit "b", CB true)].
Definition counting : effects (cworld fields) N :=
  let next (t : N) : option cv * N := (Some (CN (Z.of_N t)), t + 1) in
  Build_effects (cworld fields) N (fun _ _ => next) (fun _ _ _ => next) (fun _ _ => next) (fun v t => (Some v, t)) (fun _ _ => next).
Definition t_effects (src : str) : gres (out str * N) :=
  let* (code, _) := t_code (one src) None main in GOk (xwrites (cworld fields) N counting code 0).
(** [f()] is called three times; [a|upper] is evaluated once. *)
Example three_calls : t_effects (lit "{{ f() }}{{ a|upper }} {{ f() }}{{ a|upper }} {{ f() }}") = GOk (Done (lit "0F 1F 2"), 3).
Proof. vm_compute; reflexivity. Qed.
Example merged : exists r r' r'' r3 z, t_code (one (lit "{{ f() }}{{ a|upper }} {{ f() }}{{ a|upper }} {{ f() }}")) None main =
  GOk ([SWriteFmt (lit "{expr0}{expr1} {expr2}{expr1} {expr3}") [(0, r); (1, r'); (2, r''); (3, r3)]%nat], z).
Proof. do 5 eexists. vm_compute; reflexivity. Qed.
(** The conditions hold of it. *)
Example conditions : exists nodes, t_templates (one (lit "{{ f() }}{{ a|upper }} {{ f() }}{{ a|upper }} {{ f()|mine }}")) main = GOk [(main, nodes)] /\
  forallb tagless nodes = true /\ forall e, In e (shown_exprs nodes) -> has_user_filter e = true -> has_call e = true.
Proof.
  eexists. split; [vm_compute; reflexivity|]. split; [reflexivity|].
  intros e He. cbn [shown_exprs] in He. repeat (destruct He as [<-|He]; [vm_compute; congruence|]). destruct He.
Qed.

(** C42.  Two uses of a filter of the user are merged: here the second call is left out. *)
Theorem C42_filter_call_lost_refuted :
  exists src, t_effects src = GOk (Done (lit "00"), 1) /\
  src = lit "{{ a|mine }}{{ a|mine }}".
Proof. eexists. split; [|reflexivity]. vm_compute; reflexivity. Qed.
(** C56.  A let comes before the expressions that precede it. *)
Theorem C56_let_first_refuted :
  exists r r' z, t_code (one (lit "{{ f(1) }}{% let x = f(2) %}{{ x }}")) None main = GOk ([SLet (TName (lit "x")) r; SWriteFmt (lit "{expr0}{expr1}") [(0, r'); (1, RMarkup (lit "::askama::Html") (RName (lit "x")))]%nat], z) /\
  show r = lit "(&self.f)(2)" /\ show r' = lit "::askama::MarkupDisplay::new_unsafe(&((&self.f)(1)), ::askama::Html)".
Proof. do 3 eexists. split; [vm_compute; reflexivity|]. split; vm_compute; reflexivity. Qed.
(** C56.  An argument of a macro that is an attribute is evaluated each time the parameter is used. *)
Fixpoint stmt_calls (s : stmt) : list (list (nat * rexpr)) :=
  match s with
  | SWriteFmt _ a => [a]
  | SIf l => concat (map (fun b => concat (map stmt_calls (snd b))) l)
  | SBlock l => concat (map stmt_calls l)
  | _ => []
  end.
Theorem C56_argument_again_refuted :
  exists code z, t_code (one (lit "{% macro m(p) %}{{ p }}{% if b %}{{ p }}{% endif %}{% endmacro %}{% call m(f().x) %}")) None main = GOk (code, z) /\
  map (map (fun a => show (snd a))) (concat (map stmt_calls code)) =
    [[lit "::askama::MarkupDisplay::new_unsafe(&((&self.f)().x), ::askama::Html)"];
     [lit "::askama::MarkupDisplay::new_unsafe(&((&self.f)().x), ::askama::Html)"]].
Proof. do 2 eexists. split; [vm_compute; reflexivity|]. vm_compute; reflexivity. Qed.
(** C42.  A parameter that stands for an attribute of a call counts as call-free: its two uses are merged into one call. *)
Theorem C42_parameter_refuted :
  exists code z, t_code (one (lit "{% macro m(p) %}{{ p }}{{ p }}{% endmacro %}{% call m(f().x) %}")) None main = GOk (code, z) /\
  map (map (fun a => show (snd a))) (concat (map stmt_calls code)) =
    [[lit "::askama::MarkupDisplay::new_unsafe(&((&self.f)().x), ::askama::Html)"]].
Proof. do 2 eexists. split; [vm_compute; reflexivity|]. vm_compute; reflexivity. Qed.
Print Assumptions C42_parameter_refuted.
