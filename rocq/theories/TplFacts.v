(** * Consequences of the well-formedness of parsed templates. *)
From Verif Require Import Base Config ConfigFacts Nom Ws Ast Lex ParseExpr ParseNode NomFacts LexFacts LitSpec LitFacts ParseSpec TreeSpec ExprFacts WsFacts NodeFacts.
From Coq Require Import ZifyBool ZifyNat ZifyN.
Local Open Scope N_scope.

Lemma valid_nonempty sy : syntax_valid sy -> tags_nonempty sy.
Proof.
  intros [H _]. assert (K : forall t, delim_ok t -> t <> []) by (intros t Ht ->; destruct Ht as [Ht _]; cbn in Ht; lia).
  repeat (let H1 := fresh "D" in inversion H as [|? ? H1 H']; subst; clear H; rename H' into H; apply K in H1). repeat split; assumption.
Qed.

Section Tpl.
  Variables (lc : N -> bool) (dbg : str -> str) (sy : syntax).
  Hypothesis Hsy : tags_nonempty sy.

  Theorem from_str_answers src : exists r, from_str lc dbg sy src = Some r.
  Proof.
    unfold from_str. pose proof (good_parse_template lc dbg sy Hsy src) as H. destruct (parse_template lc dbg sy src) as [r l|e m|e m|].
    - destruct H as [-> _]. eauto.
    - eauto.
    - eauto.
    - destruct H.
  Qed.
  Theorem from_str_wf src ns : from_str lc dbg sy src = Some (inl ns) -> Forall (wf_node false) ns.
  Proof.
    unfold from_str. pose proof (good_parse_template lc dbg sy Hsy src) as H. destruct (parse_template lc dbg sy src) as [r l|e m|e m|]; try discriminate.
    destruct H as [-> H]. intros [= <-]. exact H.
  Qed.
End Tpl.

(** ** Nodes inside nodes *)
Lemma child_wf b n b' m : child b n b' m -> wf_node b n -> wf_node b' m.
Proof.
  destruct 1; intros W; inversion W; subst;
    repeat match goal with
    | H : Forall _ ?l, K : In _ ?l |- _ => rewrite Forall_forall in H; specialize (H _ K)
    | H : wf_cond _ (Cond _ _ _) |- _ => inversion H; subst; clear H
    | H : wf_when _ (When _ _ _) |- _ => inversion H; subst; clear H
    end; auto.
Qed.
Lemma inside_wf b n b' m : inside b n b' m -> wf_node b n -> wf_node b' m.
Proof. induction 1; auto. intros W. apply IHinside. eapply child_wf; eauto. Qed.
Lemma occurs_wf ns b m : Forall (wf_node false) ns -> occurs ns b m -> wf_node b m.
Proof. intros H (n & Hn & Hi). rewrite Forall_forall in H. eapply inside_wf; eauto. Qed.

Lemma sub_wf e' e : sub e' e -> wf_expr e -> wf_expr e'.
Proof.
  induction 1 as [|e k e' Hk Hs IH]; auto. intros W. apply IH. clear Hs IH.
  destruct W; cbn in Hk; repeat match goal with H : Forall _ ?l |- _ => rewrite Forall_forall in H end;
    try solve [destruct Hk as [<-|[]]; assumption | destruct Hk as [<-|[<-|[]]]; assumption | destruct Hk as [<-|Hk]; auto | destruct Hk | auto].
  apply in_app_or in Hk. destruct l, r; cbn in Hk; destruct Hk as [[<-|[]]|[<-|[]]] || destruct Hk as [[]|[<-|[]]] || destruct Hk as [[<-|[]]|[]] || destruct Hk as [[]|[]];
    match goal with H : forall e, Some ?x = Some e -> _ |- wf_expr ?x => exact (proj2 (H x eq_refl)) end.
Qed.
Lemma wf_not_named' e k v : wf_expr e -> e <> NamedArgument k v.
Proof. intros W ->. inversion W. Qed.
(** Not a named argument, a valid literal if it is one, and operands that bind strongly enough. *)
Definition fine (e : expr) : Prop :=
  ((forall k v, e <> NamedArgument k v) /\
   match e with NumLit s => rust_number s | StrLit s => quoted 34 s | CharLit s => char_accepted s | _ => True end) /\ operands_ok e.
Lemma wf_fine e : wf_expr e -> fine e.
Proof.
  intros W. split; [split; [intros k v; now apply wf_not_named'|destruct W; auto]|]. destruct W; cbn [operands_ok]; eauto.
  split; [auto|]. split; intros x E; [apply H0, E|apply H1, E].
Qed.
(** A filter without subject, as in filter blocks. *)
Lemma block_filter_sub n l e e' : wf_block_filter n l -> In e l -> sub e' e -> fine e'.
Proof.
  intros W. revert e e'. induction W as [n l Hn Hl|n m l l' Hn W IH Hl']; intros e e' He Hs.
  - rewrite Forall_forall in Hl. eapply wf_fine, sub_wf; eauto.
  - rewrite Forall_forall in Hl'. destruct He as [<-|He]; [|eapply wf_fine, sub_wf; eauto].
    inversion Hs as [|? x ? Hx Hs']; subst; [split; [split; [discriminate|exact I]|exact I]|]. cbn in Hx. eapply IH; eauto.
Qed.
Lemma wf_node_expr b n e e' : wf_node b n -> expr_of n e -> sub e' e -> fine e'.
Proof.
  intros W He Hs. destruct He; inversion W; subst;
    try solve [eapply wf_fine, sub_wf; eauto].
  - match goal with H : call_args _ |- _ => destruct H as (pos & nm & -> & Hp & Hn & _) end. apply in_app_or in H. rewrite Forall_forall in Hp.
    destruct H as [H|H]; [eapply wf_fine, sub_wf; eauto|].
    apply in_map_iff in H. destruct H as ([k' v'] & <- & _). destruct (H0 k' v' eq_refl).
  - match goal with H : call_args _ |- _ => destruct H as (pos & nm & -> & Hp & Hn & _) end. apply in_app_or in H. rewrite Forall_forall in Hp, Hn.
    destruct H as [H|H].
    + apply Hp in H. inversion H.
    + apply in_map_iff in H. destruct H as ([k' v'] & [= <- <-] & H). eapply wf_fine, sub_wf; [exact Hs|]. apply (Hn _ H).
  - match goal with K : Forall _ _ |- _ => rewrite Forall_forall in K; specialize (K _ H); inversion K; subst end.
    eapply wf_fine, sub_wf; [exact Hs|]. match goal with K : forall x, Some t = Some x -> _ |- _ => apply (K t eq_refl) end.
  - eapply block_filter_sub; eauto.
Qed.

Lemma count_lf_app a b : count_lf (a ++ b) = (count_lf a + count_lf b)%nat.
Proof. unfold count_lf. now rewrite filter_app, app_length. Qed.
Lemma count_lf_none b : ~ In 10 b -> count_lf b = O.
Proof.
  unfold count_lf. intros H. induction b as [|c b IH]; auto. cbn [List.filter]. destruct (N.eqb_spec 10 c) as [E|]; [destruct H; left; congruence|].
  apply IH. intros Hb. apply H. now right.
Qed.
Lemma last_line s : exists a b, s = a ++ b /\ ~ In 10 b /\ (a = [] \/ exists a', a = a' ++ [10]).
Proof.
  induction s as [|c s (a & b & -> & Hb & Ha)]; [exists [], []; auto|].
  destruct Ha as [->|[a' ->]].
  - cbn. destruct (N.eqb_spec c 10) as [->|Hc].
    + exists [10], b. repeat split; auto. right. now exists [].
    + exists [], (c :: b). repeat split; auto. intros [|]; tauto.
  - exists (c :: a' ++ [10]), b. repeat split; auto. right. now exists (c :: a').
Qed.
Lemma lines_raw_one b : b <> [] -> ~ In 10 b -> lines_raw b = [b].
Proof.
  induction b as [|c b IH]; [congruence|]. intros _ H. cbn [lines_raw]. destruct (N.eqb_spec c 10) as [->|Hc]; [destruct H; now left|].
  destruct b as [|d b]; auto. rewrite IH; auto; [discriminate|]. intros Hb. apply H. now right.
Qed.
Lemma lines_raw_lf a : exists ls, length ls = S (count_lf a) /\ forall x, lines_raw (a ++ 10 :: x) = ls ++ lines_raw x.
Proof.
  induction a as [|c a (ls & Hl & H)]; [exists [[]]; auto|]. destruct (N.eqb_spec c 10) as [->|Hc].
  - exists ([] :: ls). split; [cbn; now rewrite Hl|]. intros x. cbn. now rewrite H.
  - destruct ls as [|l ls]; [discriminate|]. exists ((c :: l) :: ls). split.
    + cbn [length] in *. rewrite Hl. unfold count_lf. cbn [List.filter]. destruct (N.eqb_spec 10 c); [lia|]. reflexivity.
    + intros x. cbn [app lines_raw]. rewrite H. destruct (N.eqb_spec c 10); [lia|]. reflexivity.
Qed.
Lemma str_lines_snoc ls b : str_lines_ (ls ++ [b]) false = map drop_cr ls ++ [b].
Proof. induction ls as [|l ls IH]; auto. cbn [app str_lines_ map]. destruct (ls ++ [b]) eqn:E; [destruct ls; discriminate|]. now rewrite IH. Qed.
Lemma str_lines_true ls : str_lines_ ls true = map drop_cr ls.
Proof. induction ls as [|l [|m ls] IH]; auto. cbn [str_lines_ map] in *. now rewrite IH. Qed.
Lemma last_opt_snoc {A} (l : list A) x : last_opt (l ++ [x]) = Some x.
Proof. induction l as [|a l IH]; auto. cbn [app last_opt]. destruct (l ++ [x]) eqn:E; [destruct l; discriminate|]. exact IH. Qed.

Lemma report_position dbg pre pos m : let e := error_report dbg (pre ++ pos) pos m in
  pe_message e = m /\ pe_after e = (if Nat.leb 41 (length pos) then dbg (firstn 40 pos) ++ lit "..." else dbg pos) /\
  (last_opt pre <> Some 10 -> position pre (pe_row e) (pe_column e)).
Proof.
  unfold error_report. cbv zeta. rewrite app_length, Nat.add_sub, firstn_app, Nat.sub_diag, firstn_all, app_nil_r.
  rewrite skipn_app, skipn_all, Nat.sub_diag. cbn [app skipn]. set (x := match last_opt (str_lines pre) with Some l => _ | None => _ end).
  destruct x as [row col] eqn:Ex. subst x. cbn. repeat split. intros Hlf.
  assert (E : ends_lf pre = false).
  { clear Ex. unfold ends_lf. destruct (last_opt pre) as [z|] eqn:Ez; auto. apply N.eqb_neq. intros ->. congruence. }
  destruct (last_line pre) as (a & b & -> & Hb & Ha). exists a, b. unfold str_lines in Ex. rewrite E in Ex.
  assert (G : row = count_lf a /\ col = b); [|destruct G as [-> ->]; repeat split; auto].
  destruct Ha as [->|[a' ->]].
  - cbn [app] in *. destruct b as [|c b]; [cbn in Ex; injection Ex as <- <-; auto|].
    rewrite lines_raw_one in Ex by (auto; discriminate). cbn in Ex. injection Ex as <- <-. auto.
  - rewrite <- app_assoc in *. cbn [app] in *. destruct b as [|c b]; [rewrite last_opt_snoc in Hlf; congruence|].
    destruct (lines_raw_lf a') as (ls & Hl & Hls). rewrite Hls, lines_raw_one in Ex by (auto; discriminate).
    rewrite str_lines_snoc, last_opt_snoc, app_length, map_length, Hl in Ex. injection Ex as <- <-. split; auto.
    rewrite count_lf_app. cbn. lia.
Qed.
(** At the start of a line other than the first, the row and column of the end of the line before are reported. *)
Lemma report_after_lf dbg pre pos m : let e := error_report dbg (pre ++ 10 :: pos) pos m in
  last_opt pre <> Some 13 -> position pre (pe_row e) (pe_column e).
Proof.
  unfold error_report. cbv zeta. replace (pre ++ 10 :: pos) with ((pre ++ [10]) ++ pos) by (now rewrite <- app_assoc).
  rewrite app_length, Nat.add_sub, firstn_app, Nat.sub_diag, firstn_all, app_nil_r.
  set (x := match last_opt (str_lines (pre ++ [10])) with Some l => _ | None => _ end). destruct x as [row col] eqn:Ex. subst x. cbn [pe_row pe_column].
  intros Hcr. destruct (last_line pre) as (a & b & -> & Hb & Ha). exists a, b.
  assert (L : exists ls, lines_raw ((a ++ b) ++ [10]) = ls ++ [b] /\ length ls = count_lf a).
  { destruct Ha as [->|[a' ->]].
    - exists []. cbn [app]. split; auto. destruct b as [|c b]; auto. clear -Hb. induction (c :: b) as [|y z IH]; auto. cbn [app lines_raw]. destruct (N.eqb_spec y 10) as [->|]; [destruct Hb; now left|].
      rewrite IH; auto. intros H; apply Hb; now right.
    - destruct (lines_raw_lf a') as (ls & Hl & Hls). exists ls. rewrite <- !app_assoc. cbn [app]. rewrite Hls. rewrite count_lf_app. change (count_lf [10]) with 1%nat. split. 2:{ transitivity (S (count_lf a')); [exact Hl|lia]. }
      f_equal. clear -Hb. induction b as [|y z IH]; auto. cbn [app lines_raw]. destruct (N.eqb_spec y 10) as [->|]; [destruct Hb; now left|].
      rewrite IH; auto. intros H; apply Hb; now right. }
  destruct L as (ls & L1 & L2). unfold str_lines, ends_lf in Ex. rewrite L1, last_opt_snoc in Ex. cbn [N.eqb] in Ex. rewrite str_lines_true, map_app in Ex. cbn [map] in Ex.
  rewrite last_opt_snoc, app_length, map_length, L2 in Ex. injection Ex as <- <-. repeat split; auto; [cbn; lia|].
  unfold drop_cr. destruct (last_opt b) as [z|] eqn:Ez; auto. destruct (N.eqb_spec z 13) as [->|]; auto.
  destruct Hcr. apply last_opt_app in Ez. destruct Ez as [t ->]. rewrite app_assoc. apply last_opt_snoc.
Qed.

(** ** Statements about templates *)
Section Src.
  Variables (lc : N -> bool) (dbg : str -> str) (sy : syntax).
  Hypothesis Hsy : tags_nonempty sy.
  Lemma break_in_loop src ns b m w : from_str lc dbg sy src = Some (inl ns) -> occurs ns b m -> m = NBreak w \/ m = NContinue w -> b = true.
  Proof.
    intros H Ho Hm. apply from_str_wf in H; auto. pose proof (occurs_wf _ _ _ H Ho) as W. destruct Hm as [-> | ->]; inversion W; reflexivity.
  Qed.
  Lemma call_shape src ns b w sc x args : from_str lc dbg sy src = Some (inl ns) -> occurs ns b (NCall w sc x args) ->
    exists pos named, args = pos ++ map (fun y => NamedArgument (fst y) (snd y)) named /\ Forall (fun e => forall k v, e <> NamedArgument k v) pos /\ NoDup (map fst named).
  Proof.
    intros H Ho. apply from_str_wf in H; auto. pose proof (occurs_wf _ _ _ H Ho) as W. inversion W; subst.
    match goal with K : call_args _ |- _ => destruct K as (pos & nm & -> & Hp & Hn & Hd) end. exists pos, nm. repeat split; auto.
    eapply Forall_impl; [|exact Hp]. intros e He k v. now apply wf_not_named'.
  Qed.
  Lemma expr_fine src ns b n e e' : from_str lc dbg sy src = Some (inl ns) -> occurs ns b n -> expr_of n e -> sub e' e -> fine e'.
  Proof. intros H Ho He Hs. apply from_str_wf in H; auto. eapply wf_node_expr; eauto. eapply occurs_wf; eauto. Qed.
  Lemma error_position src e : from_str lc dbg sy src = Some (inr e) ->
    exists pre pos m, src = pre ++ pos /\ (parse_template lc dbg sy src = PErr pos m \/ parse_template lc dbg sy src = PFail pos m) /\
      pe_message e = m /\ pe_after e = (if Nat.leb 41 (length pos) then dbg (firstn 40 pos) ++ lit "..." else dbg pos) /\
      (last_opt pre <> Some 10 -> position pre (pe_row e) (pe_column e)).
  Proof.
    unfold from_str. pose proof (good_parse_template lc dbg sy Hsy src) as G. destruct (parse_template lc dbg sy src) as [[|c r] l|p m|p m|] eqn:E; try discriminate; intros [= <-].
    - destruct G as [pre Ep]. subst src. exists pre, p, m. split; [reflexivity|]. split; [auto|]. apply report_position.
    - destruct G as [pre Ep]. subst src. exists pre, p, m. split; [reflexivity|]. split; [auto|]. apply report_position.
  Qed.
End Src.
