(** * How Rust groups the generated expressions: C58.  Specification in ReadSpec.v and GroupSpec.v. *)
From Coq Require Import ZArith.
From Verif Require Import Base Ws Config Nom Ast Lex ParseExpr ParseNode ParseTests ParseSpec TreeSpec TplFacts HeritageSpec HeritageFacts GenExpr Heritage Gen Sem RexprFacts SimExpr
  PanicTop ReadSpec ReadFacts GroupSpec GroupFacts GroupGen Prop_Flat TestWorld.
From Coq Require Import Lia.
Local Open Scope N_scope.

(** C58.  For every set of parsed templates (without the five forms below): every expression in the generated code is read by
    Rust as a tree that means the same.  Full statement: for every set of parsed templates.  What is missing are the forms for
    which it is false: a comparison of a comparison, [..=] without end, a number as a field that is no index ([a.-1], [a.1e5]), an
    index of a number ([1 .0]), [if let] with a range or [||].
    The text is that of trees: where tokens end is the matter of [C58_token_ends_partial] in Prop_Token.v. *)
Theorem C58_grouping_partial inp find fuel templates code z :
  parsed templates -> (forall p ns, In (p, ns) templates -> plain_template ns) ->
  build_template inp find fuel templates = GOk (code, z) ->
  Forall reads_well (all_exprs code).
Proof.
  intros HP HS. apply build_reads. intros p ns Hin. destruct (HP p ns Hin) as (lc & dbg & sy & src & Hsy & E).
  apply good_wf; [exact (from_str_wf lc dbg sy Hsy src ns E)|exact (HS p ns Hin)].
Qed.
Print Assumptions C58_grouping_partial.

(** C58.  Rust reads nothing else there: of any tokens, at any level, at most one tree is read, and only at one place. *)
Theorem C58_reading_unique k ts t s t' s' : Reads k ts t s -> Reads k ts t' s' -> t = t' /\ s = s'.
Proof. intros H. exact (proj1 reads_once _ _ _ _ H t' s'). Qed.
Print Assumptions C58_reading_unique.
(** C58.  The tokens, with the blanks between them, are the text the generator writes. *)
Theorem C58_tokens_text r : concat (map text (spaced r)) = show r.
Proof. exact (spaced_text r). Qed.
Print Assumptions C58_tokens_text.
(** C58.  What is read has the tokens it is read from. *)
Theorem C58_reading_tokens k ts t : (k <= 10)%nat -> Reads k ts t [] -> ts = toks t.
Proof. apply reads_toks. Qed.
Print Assumptions C58_reading_tokens.
(** [a + b * c] is read as a sum, whatever tree it was written for; [(a + b) * c] as a product. *)
Definition ex_sum : rexpr := RBin (lit "+") (RName (lit "a")) (RBin (lit "*") (RName (lit "b")) (RName (lit "c"))).
Definition ex_wrong : rexpr := RBin (lit "*") (RBin (lit "+") (RName (lit "a")) (RName (lit "b"))) (RName (lit "c")).
Definition ex_right : rexpr := RBin (lit "*") (RGrp (RBin (lit "+") (RName (lit "a")) (RName (lit "b")))) (RName (lit "c")).
Lemma one_reading t t' : grammatical t -> toks t' = toks t -> t' <> t -> (exists u, Reads 0 (toks t') u []) /\ forall u, Reads 0 (toks t') u [] -> u = t /\ u <> t'.
Proof.
  intros G E N. rewrite E. assert (R : Reads 0 (toks t) t []) by (apply reads_iff; [lia|split; [exact G|lia]]). split; [exists t; exact R|].
  intros u H. destruct (C58_reading_unique _ _ _ _ _ _ R H) as [<- _]. split; [reflexivity|]. intros ->. apply N. reflexivity.
Qed.
Lemma g_sum : grammatical ex_sum.
Proof. eapply (g_bin _ 8); [cbn; tauto|cbn; lia|discriminate|cbn; lia|constructor|]. eapply (g_bin _ 9); [cbn; tauto|cbn; lia|discriminate|cbn; lia|constructor|constructor]. Qed.
Example C58_sum : toks ex_wrong = toks ex_sum /\ (exists u, Reads 0 (toks ex_wrong) u []) /\ forall u, Reads 0 (toks ex_wrong) u [] -> u = ex_sum /\ u <> ex_wrong.
Proof. split; [reflexivity|]. apply one_reading; [apply g_sum|reflexivity|discriminate]. Qed.
Example C58_group : Reads 0 (toks ex_right) ex_right [] /\ toks ex_right <> toks ex_sum.
Proof.
  split; [|discriminate]. apply reads_iff; [lia|split; [|lia]]. eapply (g_bin _ 9); [cbn; tauto|cbn; lia|discriminate|cbn; lia|constructor|constructor].
  eapply (g_bin _ 8); [cbn; tauto|cbn; lia|discriminate|cbn; lia|constructor|constructor].
Qed.
(** [&..a + b] is a reference to a range up to the sum. *)
Definition ex_up : rexpr := RRef (RRange (lit "..") None (Some (RBin (lit "+") (RName (lit "a")) (RName (lit "b"))))).
Example C58_range_borrow : let t' := RBin (lit "+") (RRef (RRange (lit "..") None (Some (RName (lit "a"))))) (RName (lit "b")) in
  (exists u, Reads 0 (toks t') u []) /\ forall u, Reads 0 (toks t') u [] -> u = ex_up /\ u <> t'.
Proof.
  apply one_reading; [|reflexivity|discriminate]. apply g_ref_range; [reflexivity|]. apply g_range; [cbn; tauto|discriminate|discriminate|]. intros e [= <-]. split; [cbn; lia|].
  eapply (g_bin _ 8); [cbn; tauto|cbn; lia|discriminate|cbn; lia|constructor|constructor].
Qed.

(** ** A check for examples *)
Definition plain_op (op : str) : bool := negb (Nat.eqb (find_prec op precedence) 3).
Definition grouping_b (e : expr) : bool :=
  match e with
  | BinOp op (BinOp op' _ _) _ => plain_op op || plain_op op'
  | Range op _ None => negb (str_eqb op (lit "..="))
  | Attr e a => field_name a && negb (first_digit a && match e with NumLit _ => true | _ => false end)
  | _ => true
  end.
Fixpoint plain_b (e : expr) : bool :=
  grouping_b e &&
  match e with
  | Arr l | Tuple l | Filter _ l => forallb plain_b l
  | Attr e _ | NamedArgument _ e | Unary _ e | Group e | Try e => plain_b e
  | Index a b | BinOp _ a b => plain_b a && plain_b b
  | Range _ l r => match l with Some e => plain_b e | None => true end && match r with Some e => plain_b e | None => true end
  | Call f l => plain_b f && forallb plain_b l
  | _ => true
  end.
Definition cond_b (t : option cond_test) : bool :=
  match t with
  | Some t => plain_b (ct_expr t) &&
      match ct_target t with
      | Some _ => match ct_expr t with BinOp op _ _ => negb (str_eqb op (lit "||")) | Range _ _ _ => false | _ => true end
      | None => true
      end
  | None => true
  end.
Fixpoint node_b (n : node) : bool :=
  match n with
  | NExpr _ e | NLet _ _ (Some e) => plain_b e
  | NCall _ _ _ args => forallb plain_b args
  | NIf _ cs => forallb (fun c => match c with Cond _ t ns => cond_b t && forallb node_b ns end) cs
  | NMatch _ e arms _ => plain_b e && forallb (fun a => match a with When _ _ ns => forallb node_b ns end) arms
  | NLoop _ _ it c body _ els _ => plain_b it && match c with Some e => plain_b e | None => true end && forallb node_b body && forallb node_b els
  | NBlockDef _ _ ns _ | NMacro _ _ _ ns _ => forallb node_b ns
  | NFilterBlock _ _ args ns _ => forallb plain_b args && forallb node_b ns
  | _ => true
  end.
Lemma grouping_ok e : grouping_b e = true -> plain_grouping e.
Proof.
  destruct e; cbn [grouping_b plain_grouping]; auto.
  - intros H. apply andb_prop in H as [H1 H2]. split; [exact H1|]. intros Q s ->. rewrite Q in H2. discriminate H2.
  - destruct e1; auto. intros H [C1 C2]. apply prec_eq in C1, C2. unfold plain_op in H. rewrite C1, C2 in H. discriminate H.
  - destruct r; [discriminate|]. intros H Q. rewrite Q in H. discriminate H.
Qed.
Lemma forallb_in {A} (f : A -> bool) l a : forallb f l = true -> In a l -> f a = true.
Proof. rewrite forallb_forall. auto. Qed.
Lemma plain_kid e k : plain_b e = true -> In k (kids e) -> plain_b k = true.
Proof.
  intros H I. destruct e; cbn [plain_b] in H; apply andb_prop in H as [_ H]; cbn [kids] in I; try contradiction;
    try (eapply forallb_in; eassumption); try (destruct I as [<-|[]]; exact H); try (apply andb_prop in H as [H1 H2]).
  - destruct I as [<-|[<-|[]]]; assumption.
  - destruct I as [<-|[<-|[]]]; assumption.
  - apply in_app_iff in I as [I|I]; [destruct l|destruct r]; try contradiction; destruct I as [<-|[]]; assumption.
  - destruct I as [<-|I]; [exact H1|eapply forallb_in; eassumption].
Qed.
Lemma plain_sub e e' : sub e' e -> plain_b e = true -> plain_grouping e'.
Proof.
  induction 1 as [e|e k e' I _ IH]; intros H; [|apply IH; eapply plain_kid; eassumption]. apply grouping_ok. destruct e; cbn [plain_b] in H; apply andb_prop in H as [H _]; exact H.
Qed.
Lemma node_kid b n b' m : child b n b' m -> node_b n = true -> node_b m = true.
Proof.
  intros C H. destruct C; cbn [node_b] in H.
  - apply (forallb_in _ _ _ H) in H0. apply andb_prop in H0 as [_ H0]. exact (forallb_in _ _ _ H0 H1).
  - apply andb_prop in H as [_ H]. apply (forallb_in _ _ _ H) in H0. exact (forallb_in _ _ _ H0 H1).
  - apply andb_prop in H as [H _]. apply andb_prop in H as [_ H]. eapply forallb_in; eassumption.
  - apply andb_prop in H as [_ H]. eapply forallb_in; eassumption.
  - eapply forallb_in; eassumption.
  - eapply forallb_in; eassumption.
  - apply andb_prop in H as [_ H]. eapply forallb_in; eassumption.
Qed.
Lemma node_expr n e : expr_of n e -> node_b n = true -> plain_b e = true.
Proof.
  intros C H. destruct C; cbn [node_b] in H; try exact H.
  - eapply forallb_in; eassumption.
  - apply (forallb_in _ _ _ H) in H0. cbn [plain_b] in H0. apply andb_prop in H0 as [_ H0]. exact H0.
  - apply (forallb_in _ _ _ H) in H0. apply andb_prop in H0 as [H0 _]. apply andb_prop in H0 as [H0 _]. exact H0.
  - apply andb_prop in H as [H _]. exact H.
  - apply andb_prop in H as [H _]. apply andb_prop in H as [H _]. apply andb_prop in H as [H _]. exact H.
  - apply andb_prop in H as [H _]. apply andb_prop in H as [H _]. apply andb_prop in H as [_ H]. exact H.
  - apply andb_prop in H as [H _]. eapply forallb_in; eassumption.
Qed.
Lemma node_let n : node_b n = true -> plain_let n.
Proof.
  destruct n; cbn [plain_let]; auto. intros H w' t p ns Hc Hp. cbn [node_b] in H. apply (forallb_in _ _ _ H) in Hc. cbn [cond_b] in Hc. rewrite Hp in Hc.
  apply andb_prop in Hc as [Hc _]. apply andb_prop in Hc as [_ Hc]. destruct (ct_expr t); auto; [|discriminate Hc]. intros ->. discriminate Hc.
Qed.
Lemma plain_ok ns : forallb node_b ns = true -> plain_template ns.
Proof.
  intros H b n (n0 & I & Hin). apply (forallb_in _ _ _ H) in I. clear H. induction Hin as [b n|b n b1 m b2 k C _ IH]; [|apply IH; eapply node_kid; eassumption].
  split; [apply node_let, I|]. intros e e' O S. eapply plain_sub; [exact S|eapply node_expr; eassumption].
Qed.
Definition all_plain (d : dir) : bool := match t_templates d main with GOk ts => forallb (fun t => forallb node_b (snd t)) ts | _ => false end.
Lemma example_reads d code z : all_plain d = true -> t_code d None main = GOk (code, z) -> Forall reads_well (all_exprs code).
Proof.
  unfold all_plain, t_code. intros H E. apply gbind_inv in E as (ts & T & E). rewrite T in H. eapply C58_grouping_partial; [eapply t_parsed, T| |exact E].
  intros p ns Hin. apply plain_ok. apply (forallb_in _ _ _ H) in Hin. exact Hin.
Qed.

(** Fields of indexes, calls with conversions, references before operands, parentheses, filters, ranges, macros with arguments
    that are expressions, conditions with [let]. *)
Definition ex_group : dir := one (lit "{% macro m(p, q, r) %}{{ p.x }}{{ q + 1 }}{{ r.y(p) }}{% endmacro %}{% call m(a[0].b, c * (d + 1), e.f) %}
{% if let Some(x) = a.b && c == d && !e %}{{ -x * y - z }}{% else if a && b || !c.d() %}{{ a.0.1?|upper }}{% endif %}{% for i in 0..n + 1 %}{{ i & 1 << 2 }}{% endfor %}
{% for i in [1, 2] %}{{ a[i - 1][..2]|join("", "") }}{% endfor %}{% let z = (a, b + 1).0 %}{% match a.b %}{% when Some(v) %}{{ v|f(z == 1, -2) }}{% when _ %}{% endmatch %}{% filter upper %}{{ a }}{% endfilter %}").
Definition reads_count (d : dir) (n : nat) : bool :=
  match t_code d None main with GOk (code, z) => all_plain d && Nat.eqb (length (all_exprs code)) n | _ => false end.
Lemma reads_count_ok d n : reads_count d n = true ->
  exists code z, t_code d None main = GOk (code, z) /\ all_plain d = true /\ length (all_exprs code) = n /\ Forall reads_well (all_exprs code).
Proof.
  unfold reads_count. destruct (t_code d None main) as [[code z]| | |] eqn:E; try discriminate. intros H. apply andb_prop in H as [H1 H2]. apply PeanoNat.Nat.eqb_eq in H2.
  exists code, z. split; [reflexivity|]. split; [exact H1|]. split; [exact H2|]. exact (example_reads d code z H1 E).
Qed.
Example C58_example : reads_count ex_group 19 = true := ltac:(vm_compute; reflexivity).

(** ** The forms for which it is false *)
Fixpoint stuck (e : rexpr) : bool :=
  match e with
  | RBin op (RBin op' _ _) _ => Nat.eqb (find_prec op precedence) 3 && Nat.eqb (find_prec op' precedence) 3
  | RRange op _ None => str_eqb op (lit "..=")
  | RField e x => negb (field_ok e x)
  | RMarkup _ e => stuck e
  | _ => false
  end.
Lemma unref_bin e op l r : grammatical e -> unref e = RBin op l r -> exists l' r', e = RBin op l' r' /\ unref l' = l.
Proof.
  intros G. induction G; cbn [unref]; try discriminate.
  - intros U. destruct (IHG U) as (l' & r' & -> & _). apply bin_weak in G. exfalso. exact (PeanoNat.Nat.nle_succ_diag_l 9 (PeanoNat.Nat.le_trans _ _ _ H G)).
  - intros U. destruct (IHG U) as (l' & r' & -> & _). discriminate H.
  - intros [= <- <- <-]. eauto.
Qed.
Lemma field_unref e x : field_ok e x = true -> (11 <= firmness e)%nat -> field_ok (unref e) x = true.
Proof. intros H F. destruct e; try exact H. cbn [firmness] in F. destruct (range_first e); lia. Qed.
Lemma stuck_not e : grammatical e -> stuck (unref e) = false.
Proof.
  intros G. induction G; try reflexivity; cbn [unref]; auto.
  - cbn [stuck]. rewrite (field_unref _ _ H) by assumption. reflexivity.
  - cbn [stuck]. destruct (unref l) eqn:U; try reflexivity. destruct (unref_bin _ _ _ _ G1 U) as (l' & r' & -> & _).
    rewrite (prec_eq _ _ H). destruct (Nat.eqb p 3) eqn:E3; [|reflexivity]. apply PeanoNat.Nat.eqb_eq in E3. specialize (H1 E3). cbn [firmness] in H1.
    destruct (Nat.eqb (find_prec op0 precedence) 3) eqn:E4; [|reflexivity]. apply PeanoNat.Nat.eqb_eq in E4. rewrite E4 in H1. lia.
  - destruct r; [reflexivity|]. cbn [stuck option_map]. destruct (str_eqb op (lit "..=")) eqn:E; [|reflexivity]. apply str_eqb_eq in E. destruct (H0 E). reflexivity.
Qed.
Lemma firm_le e : grammatical e -> (firmness e <= 11)%nat.
Proof.
  intros G. destruct G; cbn [firmness]; try lia; try (destruct (range_first e); lia). rewrite (prec_eq _ _ H). pose proof (prec_range _ _ H). lia.
Qed.
Lemma unref_first e : range_first e = true -> exists op r, unref e = RRange op None r.
Proof. induction e; try discriminate; cbn [range_first unref]; [exact IHe|]. destruct l; [discriminate|]. intros _. eauto. Qed.
Lemma unref_range e op l r : grammatical e -> unref e = RRange op (Some l) r -> firmness e = 0%nat.
Proof.
  intros G. induction G; cbn [unref]; try discriminate; try reflexivity; intros U; [specialize (IHG U); lia|].
  apply unref_first in H as (op' & r' & Q). rewrite Q in U. discriminate U.
Qed.
Definition bad (x : nat * rexpr) : bool :=
  stuck (unref (snd x)) || Nat.leb 12 (fst x) || match unref (snd x) with RRange _ (Some _) _ => Nat.leb 1 (fst x) | _ => false end.
Lemma bad_not x : bad x = true -> ~ reads_well x.
Proof.
  intros B (L & t & R & _ & U & _). apply (proj1 reads_only) in R as (_ & G & F & _); [|exact L]. unfold bad in B. rewrite <- U, (stuck_not _ G), orb_false_l in B. apply orb_prop in B as [B|B].
  - apply PeanoNat.Nat.leb_le in B. apply firm_le in G. lia.
  - destruct (unref t) eqn:E; try discriminate B. destruct l; [|discriminate B]. rewrite (unref_range _ _ _ _ G E) in F. apply PeanoNat.Nat.leb_le in B. lia.
Qed.
Definition has_bad (d : dir) : bool := match t_code d None main with GOk (code, _) => existsb bad (all_exprs code) | _ => false end.
Definition misread (d : dir) : Prop := exists templates code z, parsed templates /\ t_templates d main = GOk templates /\
  build_template (t_inp None main) (t_find d) FUEL templates = GOk (code, z) /\ ~ Forall reads_well (all_exprs code).
Lemma has_bad_ok d : has_bad d = true -> misread d.
Proof.
  unfold has_bad, misread. intros H. destruct (t_code d None main) as [[code z]| | |] eqn:E; try discriminate H. unfold t_code in E. apply gbind_inv in E as (ts & T & E).
  exists ts, code, z. split; [eapply t_parsed, T|]. split; [exact T|]. split; [exact E|]. intros F. apply existsb_exists in H as (x & I & B). rewrite Forall_forall in F. exact (bad_not x B (F x I)).
Qed.
Definition t_texts (d : dir) : list str := match t_code d None main with GOk (code, _) => map (fun x => show (snd x)) (all_exprs code) | _ => [] end.
(** C58.  The code generated for these templates is not Rust. *)
Theorem C58_grouping_refuted : exists d, misread d.
Proof. exists (one (lit "{{ a == b == c }}")). apply has_bad_ok. vm_compute. reflexivity. Qed.
Print Assumptions C58_grouping_refuted.
Example C58_comparison : misread (one (lit "{% if a < b == (c > d) %}x{% endif %}")).
Proof. apply has_bad_ok. vm_compute. reflexivity. Qed.
Example C58_range_end : misread (one (lit "{% for i in 1..= %}x{% endfor %}")).
Proof. apply has_bad_ok. vm_compute. reflexivity. Qed.
Example C58_negative_field : misread (one (lit "{{ a.-1 }}")).
Proof. apply has_bad_ok. vm_compute. reflexivity. Qed.
(** [1 .0], the field [0] of the number [1], is written [1.0], which is another number. *)
Example C58_number_field : misread (one (lit "{{ 1 .0 }}")).
Proof. apply has_bad_ok. vm_compute. reflexivity. Qed.
Example C58_number_field_text : t_texts (one (lit "{{ 1 .0 }}")) = t_texts (one (lit "{{ 1.0 }}")) /\ t_texts (one (lit "{{ 1.0 }}")) <> [].
Proof. vm_compute. split; [reflexivity|discriminate]. Qed.
Example C58_exponent_field : misread (one (lit "{{ a.1e5 }}")).
Proof. apply has_bad_ok. vm_compute. reflexivity. Qed.
Example C58_let_or : misread (one (lit "{% if let Some(x) = a || b %}x{% endif %}")).
Proof. apply has_bad_ok. vm_compute. reflexivity. Qed.
Example C58_let_range : misread (one (lit "{% if let x = a..b %}x{% endif %}")).
Proof. apply has_bad_ok. vm_compute. reflexivity. Qed.
