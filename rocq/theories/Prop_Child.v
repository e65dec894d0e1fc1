(** * What a template with a parent has outside of its blocks and macros is not rendered: C71.  No definition here models code in /repo. *)
From Coq Require Import ZArith Lia.
From Verif Require Import Base Ws Config Ast ParseNode GenExpr Heritage Gen HeritageSpec HeritageFacts EndFacts TreeSpec Order OrderFacts Prop_Heritage.
From Verif Require GroupGen.
Local Open Scope N_scope.

(** A node without declarations: there is no block, macro, import or extends in it *)
Definition silent (n : node) : Prop :=
  forall b b' m, inside b n b' m -> match m with NBlockDef _ _ _ _ | NMacro _ _ _ _ _ | NImport _ _ _ | NExtends _ => False | _ => True end.
(** The same nodes without some of those *)
Inductive thinner : list node -> list node -> Prop :=
| th_nil : thinner [] []
| th_keep n ns ns' : thinner ns ns' -> thinner (n :: ns) (n :: ns')
| th_drop n ns ns' : silent n -> thinner ns ns' -> thinner ns (n :: ns').
(** The same templates; in those with a parent, nodes without declarations at the top may be missing *)
Definition outlined (t t' : str * list node) : Prop :=
  fst t = fst t' /\ (snd t = snd t' \/ (exists q, In (NExtends q) (snd t)) /\ thinner (snd t) (snd t')).

(** ** The contexts *)
Definition wn (x : list node) (c : context) : context := {| c_nodes := x; c_extends := c_extends c; c_blocks := c_blocks c; c_macros := c_macros c; c_imports := c_imports c |}.
Definition rm {A B} (f : A -> B) (r : res A) : res B := match r with Ok a => Ok (f a) | Err m => Err m | Panic => Panic end.
Lemma node_wn find path top n x c : context_node find path top n (wn x c) = rm (fun y => (wn x (fst y), snd y)) (context_node find path top n c).
Proof.
  destruct n; try reflexivity; cbn [context_node]; destruct top; try reflexivity.
  - cbn [wn c_extends]. destruct (c_extends c); [reflexivity|]. destruct (find path0 path); reflexivity.
  - destruct (find path0 path); reflexivity.
Qed.
Lemma silent_child b n b' m : silent n -> child b n b' m -> silent m.
Proof. intros H C b1 b2 k K. destruct (GroupGen.inside_any _ _ _ _ K b') as [b3 K']. apply (H b b3). eapply in_child; eassumption. Qed.
Lemma silent_node find path top n c : silent n -> exists more, context_node find path top n c = Ok (c, more) /\ Forall (Forall silent) more.
Proof.
  intros H. pose proof (H false false n (in_here _ _)) as H0.
  assert (K : forall more, (forall ns m, In ns more -> In m ns -> exists b b', child b n b' m) -> Forall (Forall silent) more).
  { intros more C. apply Forall_forall. intros ns Hn. apply Forall_forall. intros m Hm. destruct (C ns m Hn Hm) as (b & b' & D). eapply silent_child; eassumption. }
  destruct n; try contradiction; cbn [context_node]; (eexists; split; [reflexivity|]); try solve [apply Forall_nil]; apply K; intros ns m Hn Hm.
  - apply in_map_iff in Hn as ([w' t body] & <- & Hc). exists false, false. eapply ch_if; eassumption.
  - apply in_map_iff in Hn as ([w' t body] & <- & Hc). exists false, false. eapply ch_match; eassumption.
  - destruct Hn as [<-|[<-|[]]]; exists false; eexists; [eapply ch_body; eassumption|eapply ch_else; eassumption].
Qed.
Inductive stacks : list (list node) -> list (list node) -> Prop :=
| sk_nil : stacks [] []
| sk_keep ns s s' : stacks s s' -> stacks (ns :: s) (ns :: s')
| sk_drop ns s s' : Forall silent ns -> stacks s s' -> stacks s (ns :: s').
Lemma stacks_same l s s' : stacks s s' -> stacks (l ++ s) (l ++ s').
Proof. intros H. induction l as [|x l IH]; [exact H|constructor; exact IH]. Qed.
Lemma stacks_more l s s' : Forall (Forall silent) l -> stacks s s' -> stacks s (l ++ s').
Proof. intros F H. induction F as [|x l H1 F IH]; [exact H|apply sk_drop; assumption]. Qed.
Definition rrel (x : list node) (r r' : res (context * list (list node))) : Prop :=
  match r, r' with Ok (c, s), Ok (c', s') => c' = wn x c /\ stacks s s' | Err m, Err m' => m = m' | Panic, Panic => True | _, _ => False end.
Lemma nodes_thin find path top x : forall ns ns', thinner ns ns' -> forall c s s', stacks s s' -> rrel x (context_nodes find path top ns c s) (context_nodes find path top ns' (wn x c) s').
Proof.
  induction 1 as [|n ns ns' T IH|n ns ns' HS T IH]; intros c s s' H; cbn [context_nodes].
  - split; [reflexivity|exact H].
  - rewrite node_wn. destruct (context_node find path top n c) as [[c1 more]|m|]; cbn [rm rbind fst snd rrel]; auto. apply IH. apply stacks_same, H.
  - destruct (silent_node find path top n (wn x c) HS) as (more & -> & F). cbn [rbind]. apply IH. apply stacks_more; [apply Forall_rev, F|exact H].
Qed.
Lemma thinner_refl ns : thinner ns ns.
Proof. induction ns; constructor; assumption. Qed.
Lemma nodes_silent find path top : forall ns c s, Forall silent ns -> exists more, context_nodes find path top ns c s = Ok (c, more ++ s) /\ Forall (Forall silent) more.
Proof.
  induction ns as [|n ns IH]; intros c s F; [exists []; split; [reflexivity|constructor]|]. inversion F as [|? ? H1 H2]; subst. cbn [context_nodes]. destruct (silent_node find path top n c H1) as (more & -> & G). cbn [rbind].
  destruct (IH c (rev more ++ s) H2) as (m2 & -> & G2). exists (m2 ++ rev more). rewrite <- app_assoc. split; [reflexivity|]. apply Forall_app. split; [exact G2|apply Forall_rev, G].
Qed.
Definition frel (x : list node) (r r' : gres context) : Prop := match r, r' with GOk c, GOk c' => c' = wn x c | GErr m, GErr m' => m = m' | GPanic, GPanic => True | _, _ => False end.
Lemma loop_thin find path x : forall f' s s', stacks s s' -> forall f c, context_loop find f path false s c <> GFuel -> context_loop find f' path false s' (wn x c) <> GFuel ->
  frel x (context_loop find f path false s c) (context_loop find f' path false s' (wn x c)).
Proof.
  induction f' as [|f' IH]; intros s s' H f c H1 H2; destruct H as [|ns s s' H|ns s s' HS H]; try (destruct f; reflexivity); try (destruct H2; reflexivity).
  - destruct f as [|f]; [destruct H1; reflexivity|]. cbn [context_loop] in *. pose proof (nodes_thin find path false x ns ns (thinner_refl ns) c s s' H) as K.
    destruct (context_nodes find path false ns c s) as [[c1 s1]|m|], (context_nodes find path false ns (wn x c) s') as [[c2 s2]|m'|]; cbn [rrel] in K; try contradiction; cbn [of_res gbind frel] in *; auto.
    destruct K as [-> K]. apply IH; assumption.
  - cbn [context_loop] in *. destruct (nodes_silent find path false ns (wn x c) s' HS) as (more & E & F). rewrite E in *. cbn [of_res gbind] in *. apply IH; [apply stacks_more; assumption|exact H1|exact H2].
Qed.
Lemma new_thin find path ns ns' : thinner ns ns' -> frel ns' (context_new find path ns) (context_new find path ns').
Proof.
  intros T. pose proof (context_new_ends find path ns) as E1. pose proof (context_new_ends find path ns') as E2. unfold context_new in *. cbn [context_loop] in *.
  pose proof (nodes_thin find path true ns' ns ns' T {| c_nodes := ns; c_extends := None; c_blocks := []; c_macros := []; c_imports := [] |} [] [] sk_nil) as K.
  change (wn ns' {| c_nodes := ns; c_extends := None; c_blocks := []; c_macros := []; c_imports := [] |}) with {| c_nodes := ns'; c_extends := None; c_blocks := []; c_macros := []; c_imports := [] |} in K.
  destruct (context_nodes find path true ns _ []) as [[c1 s1]|m|], (context_nodes find path true ns' _ []) as [[c2 s2]|m'|]; cbn [rrel] in K; try contradiction; cbn [of_res gbind frel] in *; auto.
  destruct K as [-> K]. apply loop_thin; assumption.
Qed.
Definition crel (r r' : gres (list (str * context))) : Prop :=
  match r, r' with GOk l, GOk l' => Forall2 (fun x y => fst x = fst y /\ ceq (snd x) (snd y)) l l' | GErr m, GErr m' => m = m' | GPanic, GPanic => True | _, _ => False end.
Lemma keyed_new find path ns c : context_new find path ns = GOk c -> keyed c.
Proof. intros E. eapply loop_keyed; [|exact E]. repeat split; constructor. Qed.
Lemma contexts_thin find : forall ts ts', Forall2 outlined ts ts' -> crel (build_contexts find ts) (build_contexts find ts').
Proof.
  induction 1 as [|[p ns] [p' ns'] ts ts' [H1 H2] F IH]; [constructor|]. cbn [fst snd] in H1, H2. subst p'. cbn [build_contexts].
  assert (K : match context_new find p ns, context_new find p ns' with GOk c, GOk c' => ceq c c' | GErr m, GErr m' => m = m' | GPanic, GPanic => True | _, _ => False end).
  { destruct H2 as [<-|[(q & Hq) T]].
    - pose proof (context_new_ends find p ns) as E. destruct (context_new find p ns) as [c| | |] eqn:EC; try reflexivity; [|destruct E; reflexivity]. pose proof (keyed_new _ _ _ _ EC) as (K1 & _ & _). constructor; try assumption; try reflexivity; intros ?; reflexivity.
    - pose proof (new_thin find p ns ns' T) as K. destruct (context_new find p ns) as [c| | |] eqn:EC, (context_new find p ns') as [c'| | |]; cbn [frel] in K; try contradiction; auto. subst c'.
      pose proof (keyed_new _ _ _ _ EC) as (K1 & _ & _). destruct (C34_context find p ns c EC) as (_ & _ & _ & _ & X). destruct (X q Hq) as (r & _ & Er). constructor; try assumption; try reflexivity; try (intros ?; reflexivity). intros E0. rewrite Er in E0. discriminate E0. }
  destruct (context_new find p ns) as [c| | |], (context_new find p ns') as [c'| | |]; try contradiction; cbn [gbind crel]; auto.
  destruct (build_contexts find ts) as [l| | |], (build_contexts find ts') as [l'| | |]; cbn [crel] in IH; try contradiction; cbn [gbind crel]; auto.
Qed.
(** C71.  Text, expressions, lets, loops and so on at the top of templates with a parent: with or without them the result is the same. *)
Theorem C71_outside_blocks inp find fuel ts ts' : Forall2 outlined ts ts' -> build_template inp find fuel ts = build_template inp find fuel ts'.
Proof.
  intros F. pose proof (contexts_thin find ts ts' F) as K.
  change (gbind (build_contexts find ts) (build_from inp find fuel) = gbind (build_contexts find ts') (build_from inp find fuel)).
  destruct (build_contexts find ts) as [l|m| |], (build_contexts find ts') as [l'|m'| |]; cbn [crel] in K; try contradiction; cbn [gbind]; [|congruence|reflexivity]. apply from_ext.
  - intros p. clear F. induction K as [|[q c] [q' c'] l l' [H1 H2] K IH]; [exact I|]. cbn [fst snd] in H1, H2. subst q'. cbn [get]. destruct (str_eqb p q); [exact H2|exact IH].
  - clear F. induction K; cbn [length]; congruence.
Qed.
Print Assumptions C71_outside_blocks.

(** ** Examples *)
Fixpoint is_silent (fuel : nat) (n : node) : bool :=
  match fuel with
  | O => false
  | S k => match n with
      | NBlockDef _ _ _ _ | NMacro _ _ _ _ _ | NImport _ _ _ | NExtends _ => false
      | NIf _ cs => forallb (fun c => match c with Cond _ _ b => forallb (is_silent k) b end) cs
      | NMatch _ _ arms _ => forallb (fun c => match c with When _ _ b => forallb (is_silent k) b end) arms
      | NLoop _ _ _ _ b _ e _ => forallb (is_silent k) b && forallb (is_silent k) e
      | NFilterBlock _ _ _ b _ => forallb (is_silent k) b
      | _ => true
      end
  end.
Lemma is_silent_child b n b' m k : child b n b' m -> is_silent k n = true -> exists k', is_silent k' m = true.
Proof.
  intros H E. destruct k as [|k]; [discriminate E|]. exists k. cbn [is_silent] in E.
  destruct H as [b w cs w' t ns m H1 H2|b w1 e arms w2 w' t ns m H1 H2|b w1 v it c body w2 els w3 m H|b w1 v it c body w2 els w3 m H|b w1 x ns w2 m H|b w1 x args ns w2 m H|b w1 x args ns w2 m H];
    try discriminate E; try (apply andb_true_iff in E as [E E']); rewrite forallb_forall in E; try (apply E; exact H).
  - specialize (E _ H1). cbn in E. rewrite forallb_forall in E. auto.
  - specialize (E _ H1). cbn in E. rewrite forallb_forall in E. auto.
  - rewrite forallb_forall in E'. auto.
Qed.
Lemma is_silent_ok k n : is_silent k n = true -> silent n.
Proof.
  intros E b b' m K. revert k E. induction K as [b n|b n b1 m b2 j C K IH]; intros k E.
  - destruct k as [|k]; [discriminate E|]. destruct n; try exact I; discriminate E.
  - destruct (is_silent_child _ _ _ _ _ C E) as [k' E']. exact (IH k' E').
Qed.
Definition thin_all (ns : list node) : list node := filter (fun n => negb (is_silent 9 n)) ns.
Lemma thin_all_ok ns : thinner (thin_all ns) ns.
Proof.
  induction ns as [|n ns IH]; [constructor|]. cbn [thin_all filter]. destruct (is_silent 9 n) eqn:E; cbn [negb]; [apply th_drop; [eapply is_silent_ok, E|exact IH]|apply th_keep, IH].
Qed.
(** A page with text, a let, a loop with an include and an expression around its block, and without them *)
Definition C71_inp : ginput := {| f_escaper := lit "::askama::Html"; f_escapers := []; f_json := false; f_ws := Preserve; f_block := None; f_path := lit "m" |}.
Definition C71_text (s : str) : node := NLit {| lws := []; lval := s; rws := [] |}.
Definition C71_page : list node :=
  [NExtends (lit "b"); C71_text (lit "outside"); NLet no_ws (TName (lit "v")) (Some (NumLit (lit "1"))); NBlockDef no_ws (lit "x") [C71_text (lit "in"); NExpr no_ws (Var (lit "v"))] no_ws;
   NLoop no_ws (TName (lit "i")) (Var (lit "l")) None [NInclude no_ws (lit "none")] no_ws [] no_ws; NExpr no_ws (Var (lit "w"))].
Definition C71_base : list node := [C71_text (lit "<"); NBlockDef no_ws (lit "x") [] no_ws; C71_text (lit ">")].
Example C71_example :
  length (thin_all C71_page) = 2%nat /\ Forall2 outlined [(lit "m", thin_all C71_page); (lit "b", C71_base)] [(lit "m", C71_page); (lit "b", C71_base)] /\
  match build_template C71_inp (fun n _ => Ok n) 9 [(lit "m", C71_page); (lit "b", C71_base)] with GOk (c, _) => negb (Nat.eqb (length c) 0) | _ => false end = true.
Proof.
  split; [vm_compute; reflexivity|]. split; [|vm_compute; reflexivity]. constructor; [split; [reflexivity|]; right; split; [exists (lit "b"); left; reflexivity|apply thin_all_ok]|].
  constructor; [split; [reflexivity|left; reflexivity]|constructor].
Qed.
(** In a template without a parent they count. *)
Example C71_parent_example : build_template C71_inp (fun n _ => Ok n) 9 [(lit "m", thin_all C71_base)] <> build_template C71_inp (fun n _ => Ok n) 9 [(lit "m", C71_base)].
Proof. vm_compute. discriminate. Qed.
