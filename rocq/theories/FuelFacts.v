(** * More expansion depth changes nothing once it sufficed. *)
From Verif Require Import Base Ws Ast Ident GenExpr Heritage Gen PanicTop.
Local Open Scope N_scope.

(** [y] is what [x] is, unless [x] ran out of fuel. *)
Definition gle {A} (x y : gres A) : Prop := x = GFuel \/ y = x.
Lemma gle_refl {A} (x : gres A) : gle x x.
Proof. right. reflexivity. Qed.
Lemma gle_bind {A B} (x y : gres A) (f g : A -> gres B) : gle x y -> (forall a, gle (f a) (g a)) -> gle (gbind x f) (gbind y g).
Proof. intros [-> | ->] H; [left; reflexivity|]. destruct x; try apply gle_refl. apply H. Qed.
Lemma gle_bind_same {A B} (x : gres A) (f g : A -> gres B) : (forall a, gle (f a) (g a)) -> gle (gbind x f) (gbind x g).
Proof. apply gle_bind, gle_refl. Qed.
Ltac gl := repeat first
  [ apply gle_refl
  | assumption
  | match goal with |- gle (gbind ?x _) (gbind ?x _) => apply gle_bind_same; intros end
  | apply gle_bind; [|intros]
  | match goal with |- gle (match ?x with _ => _ end) (match ?x with _ => _ end) => destruct x end ].

Section Fuel.
  Variables (inp : ginput) (contexts : list (str * context)) (find : str -> str -> res str).
  Section Step.
    Variables e1 e2 : option heritage -> context -> list node -> level -> gst -> gres gen.
    Hypothesis HE : forall her ctx ns lv st, gle (e1 her ctx ns lv st) (e2 her ctx ns lv st).
    Variables (her : option heritage) (ctx : context).
    Lemma block_le name outer st : gle (write_block inp e1 her ctx name outer st) (write_block inp e2 her ctx name outer st).
    Proof. unfold write_block. gl. apply HE. Qed.
    Lemma call_le w scope name args st : gle (write_call inp contexts e1 her ctx w scope name args st) (write_call inp contexts e2 her ctx w scope name args st).
    Proof. unfold write_call. destruct (str_eqb name (lit "super")); [apply block_le|]. gl. apply HE. Qed.
    Lemma include_le w path st : gle (write_include inp contexts find e1 ctx w path st) (write_include inp contexts find e2 ctx w path st).
    Proof. unfold write_include. gl. apply HE. Qed.
    Lemma loop_le b1 b2 l1 l2 h w1 v it c w2 w3 st : (forall st, gle (b1 st) (b2 st)) -> (forall st, gle (l1 st) (l2 st)) ->
      gle (write_loop inp b1 l1 h w1 v it c w2 w3 st) (write_loop inp b2 l2 h w1 v it c w2 w3 st).
    Proof. intros H1 H2. unfold write_loop. gl; auto. Qed.
    Lemma filter_le b1 b2 w1 f a w2 st : (forall st, gle (b1 st) (b2 st)) -> gle (write_filter_block inp b1 w1 f a w2 st) (write_filter_block inp b2 w1 f a w2 st).
    Proof. intros H1. unfold write_filter_block. gl; auto. Qed.
    Section Lists.
      Variables f1 f2 : node -> gst -> gres gen.
      Lemma list_le : forall ns, (forall n, In n ns -> forall st, gle (f1 n st) (f2 n st)) -> forall st, gle (gen_list f1 ns st) (gen_list f2 ns st).
      Proof.
        induction ns as [|n ns IH]; intros H st; [apply gle_refl|]. cbn [gen_list]. apply gle_bind; [apply H; left; reflexivity|].
        intros [[c z] st']. apply gle_bind; [apply IH; intros; apply H; right; assumption|]. intros; gl.
      Qed.
      Lemma branches_le w : forall cs, (forall w' t ns, In (Cond w' t ns) cs -> forall st, gle (gen_list f1 ns st) (gen_list f2 ns st)) ->
        forall first st, gle (gen_branches inp f1 w first cs st) (gen_branches inp f2 w first cs st).
      Proof.
        induction cs as [|[w' t ns] cs IH]; intros H first st; [apply gle_refl|]. cbn [gen_branches].
        apply gle_bind_same; intros [[? ?] ?]. apply gle_bind_same; intros ?. apply gle_bind_same; intros [? ?].
        apply gle_bind; [eapply H; left; reflexivity|]. intros [[? ?] ?]. apply gle_bind; [apply IH; intros; eapply H; right; eassumption|]. intros; gl.
      Qed.
      Lemma arms_le w : forall cs, (forall w' t ns, In (When w' t ns) cs -> forall st, gle (gen_list f1 ns st) (gen_list f2 ns st)) ->
        forall first st, gle (gen_arms inp f1 w first cs st) (gen_arms inp f2 w first cs st).
      Proof.
        induction cs as [|[w' t ns] cs IH]; intros H first st; [apply gle_refl|]. cbn [gen_arms].
        apply gle_bind_same; intros [[? ?] ?]. apply gle_bind_same; intros ?. apply gle_bind_same; intros [? ?].
        apply gle_bind; [eapply H; left; reflexivity|]. intros [[? ?] ?]. apply gle_bind; [apply IH; intros; eapply H; right; eassumption|]. intros; gl.
      Qed.
    End Lists.
    Lemma node_le : forall n lv st, gle (handle_node inp contexts find e1 her ctx lv n st) (handle_node inp contexts find e2 her ctx lv n st).
    Proof.
      induction n using node_ind_all; intros lv st; cbn [handle_node].
      - destruct n; try contradiction; try apply gle_refl; [apply call_le|apply include_le].
      - apply gle_bind; [|intros; gl]. apply branches_le. intros w' t ns Hc st'. rewrite Forall_forall in H. specialize (H _ Hc). cbn in H. rewrite Forall_forall in H.
        apply list_le. intros m Hm st0. apply H, Hm.
      - apply gle_bind_same; intros [[? ?] ?]. apply gle_bind_same; intros ?. apply gle_bind_same; intros ?. apply gle_bind; [|intros; gl].
        apply arms_le. intros w' t ns Hc st'. rewrite Forall_forall in H. specialize (H _ Hc). cbn in H. rewrite Forall_forall in H.
        apply list_le. intros m Hm st0. apply H, Hm.
      - rewrite Forall_forall in *. apply loop_le; intros st'; apply list_le; intros m Hm st0; auto.
      - apply block_le.
      - apply gle_refl.
      - rewrite Forall_forall in *. apply filter_le; intros st'; apply list_le; intros m Hm st0; auto.
    Qed.
    Lemma nodes_le ns lv st : gle (handle_nodes inp contexts find e1 her ctx ns lv st) (handle_nodes inp contexts find e2 her ctx ns lv st).
    Proof. unfold handle_nodes. apply gle_bind; [apply list_le; intros; apply node_le|]. intros; gl. Qed.
  End Step.
  Lemma handle_le : forall f1 f2, (f1 <= f2)%nat -> forall her ctx ns lv st, gle (handle inp contexts find f1 her ctx ns lv st) (handle inp contexts find f2 her ctx ns lv st).
  Proof.
    induction f1 as [|f1 IH]; intros f2 L her ctx ns lv st; [left; reflexivity|]. destruct f2 as [|f2]; [inversion L|].
    cbn [handle]. apply nodes_le. intros. apply IH. exact (le_S_n _ _ L).
  Qed.
End Fuel.
Lemma heritage_le contexts : forall f1 f2, (f1 <= f2)%nat -> forall c bs, gle (heritage_loop f1 contexts c bs) (heritage_loop f2 contexts c bs).
Proof.
  induction f1 as [|f1 IH]; intros f2 L c bs.
  - destruct f2; cbn [heritage_loop]; destruct (c_extends c); try apply gle_refl; left; reflexivity.
  - destruct f2 as [|f2]; [inversion L|]. cbn [heritage_loop]. destruct (c_extends c); [|apply gle_refl]. destruct (get s contexts); [|apply gle_refl]. apply IH. exact (le_S_n _ _ L).
Qed.
(** A derivation that ended at some depth ends the same way at every greater one. *)
Theorem build_le inp find f1 f2 templates : (f1 <= f2)%nat -> build_template inp find f1 templates <> GFuel ->
  build_template inp find f2 templates = build_template inp find f1 templates.
Proof.
  intros L N. enough (G : gle (build_template inp find f1 templates) (build_template inp find f2 templates)) by (destruct G as [G|G]; [contradiction|exact G]).
  unfold build_template. apply gle_bind_same. intros contexts. destruct (get (f_path inp) contexts) as [ctx|]; [|apply gle_refl].
  apply gle_bind.
  - assert (G : gle (let* h := heritage_new f1 contexts ctx in match f_block inp with
         | Some b => match get b (h_blocks h) with None => GErr (lit "cannot find block") | Some _ => GOk (Some h) end | None => GOk (Some h) end)
       (let* h := heritage_new f2 contexts ctx in match f_block inp with
         | Some b => match get b (h_blocks h) with None => GErr (lit "cannot find block") | Some _ => GOk (Some h) end | None => GOk (Some h) end)).
    { apply gle_bind; [apply heritage_le, L|]. intros; gl. }
    destruct (c_blocks ctx); [|exact G]. destruct (c_extends ctx); [exact G|apply gle_refl].
  - intros her. unfold impl_template. apply gle_bind; [apply handle_le, L|]. intros; gl.
Qed.
