(** * C71 for whole projects: what a child has outside of its blocks may be missing from the file.  No definition here models code in /repo. *)
From Coq Require Import ZArith Lia.
From Verif Require Import Base Nom Ws Config ConfigFacts Ast ParseNode GenExpr Heritage Gen HeritageSpec HeritageFacts UsedFacts EndFacts TreeSpec GenText Derive ParseTests Prop_Child Prop_Spell.
From Verif Require GroupGen Prop_Move.
Local Open Scope N_scope.

(** A node that declares nothing and names no file *)
Definition mute (n : node) : Prop :=
  forall b b' m, inside b n b' m -> match m with NBlockDef _ _ _ _ | NMacro _ _ _ _ _ | NImport _ _ _ | NExtends _ | NInclude _ _ => False | _ => True end.
(** The same nodes without some of those *)
Inductive leaner : list node -> list node -> Prop :=
| le_nil : leaner [] []
| le_keep n ns ns' : leaner ns ns' -> leaner (n :: ns) (n :: ns')
| le_drop n ns ns' : mute n -> leaner ns ns' -> leaner ns (n :: ns').
(** The same template; if it has a parent, such nodes at the top may be missing *)
Definition lean (ns ns' : list node) : Prop := ns = ns' \/ (exists q, In (NExtends q) ns) /\ leaner ns ns'.
(** Read alike: two such templates, or the same error *)
Definition read_alike (r r' : res (list node)) : Prop := match r, r' with Ok ns, Ok ns' => lean ns ns' | Err m, Err m' => m = m' | Panic, Panic => True | _, _ => False end.

Lemma mute_silent n : mute n -> silent n.
Proof. intros H b b' m K. specialize (H b b' m K). destruct m; auto. Qed.
Lemma leaner_thinner ns ns' : leaner ns ns' -> thinner ns ns'.
Proof. induction 1; [constructor|apply th_keep; assumption|apply th_drop; [apply mute_silent|]; assumption]. Qed.
Lemma leaner_refl ns : leaner ns ns.
Proof. induction ns; constructor; assumption. Qed.
Lemma lean_leaner ns ns' : lean ns ns' -> leaner ns ns'.
Proof. intros [->|[_ H]]; [apply leaner_refl|exact H]. Qed.
Lemma mute_child b n b' m : mute n -> child b n b' m -> mute m.
Proof. intros H C b1 b2 k K. destruct (GroupGen.inside_any _ _ _ _ K b') as [b3 K']. apply (H b b3). eapply in_child; eassumption. Qed.

(** ** The search *)
Section Search.
  Variables (find : str -> str -> res str) (load load' : str -> res str) (parse parse' : str -> res (list node)).
  Definition agree (r r' : res str) : Prop := match r, r' with Ok s, Ok s' => read_alike (parse s) (parse' s') | Err m, Err m' => m = m' | Panic, Panic => True | _, _ => False end.
  Hypothesis HL : forall name from p, find name from = Ok p -> agree (load p) (load' p).
  Definition maps : list (str * list node) -> list (str * list node) -> Prop := Forall2 (fun x y => fst y = fst x /\ lean (snd x) (snd y)).
  Record same (st st' : fstate) : Prop := { sm_map : maps (u_map st) (u_map st'); sm_graph : u_graph st' = u_graph st;
    sm_check : Forall2 (fun x y => fst y = fst x /\ read_alike (parse (snd x)) (parse' (snd y))) (u_check st) (u_check st') }.
  Inductive stacked : list (list node) -> list (list node) -> Prop :=
  | sd_nil : stacked [] []
  | sd_keep ns s s' : stacked s s' -> stacked (ns :: s) (ns :: s')
  | sd_drop ns s s' : Forall mute ns -> stacked s s' -> stacked s (ns :: s').
  Lemma stacked_same l s s' : stacked s s' -> stacked (l ++ s) (l ++ s').
  Proof. intros H. induction l as [|x l IH]; [exact H|constructor; exact IH]. Qed.
  Lemma stacked_more l s s' : Forall (Forall mute) l -> stacked s s' -> stacked s (l ++ s').
  Proof. intros F H. induction F as [|x l H1 F IH]; [exact H|apply sd_drop; assumption]. Qed.
  Definition rsame (r r' : res fstate) : Prop := match r, r' with Ok s, Ok s' => same s s' | Err m, Err m' => m = m' | Panic, Panic => True | _, _ => False end.
  Definition rsame2 (r r' : res (fstate * list (list node))) : Prop :=
    match r, r' with Ok (s, l), Ok (s', l') => same s s' /\ l' = l | Err m, Err m' => m = m' | Panic, Panic => True | _, _ => False end.
  Definition rsame3 (r r' : res (fstate * list (list node))) : Prop :=
    match r, r' with Ok (s, l), Ok (s', l') => same s s' /\ stacked l l' | Err m, Err m' => m = m' | Panic, Panic => True | _, _ => False end.
  Definition gsame (r r' : gres fstate) : Prop := match r, r' with GOk s, GOk s' => same s s' | GErr m, GErr m' => m = m' | GPanic, GPanic => True | _, _ => False end.
  Lemma get_maps p m m' : maps m m' -> match get p m, get p m' with Some _, Some _ | None, None => True | _, _ => False end.
  Proof. induction 1 as [|[q ns] [q' ns'] l l' [H1 H2] F IH]; [exact I|]. cbn [fst] in H1. subst q'. cbn [get]. destruct (str_eqb p q); [exact I|exact IH]. Qed.
  Lemma put_maps p ns ns' m m' : lean ns ns' -> maps m m' -> maps (put p ns m) (put p ns' m').
  Proof.
    intros H. induction 1 as [|[q x] [q' x'] l l' [H1 H2] F IH]; [constructor; [split; [reflexivity|exact H]|constructor]|]. cbn [fst snd] in H1, H2. subst q'. cbn [put].
    destruct (str_eqb p q); (constructor; [split; [reflexivity|assumption]|]); [exact F|exact IH].
  Qed.
  Lemma add_same name from p st st' : find name from = Ok p -> same st st' -> rsame (add_to_check load p st) (add_to_check load' p st').
  Proof.
    intros E [H1 H2 H3]. unfold add_to_check. pose proof (get_maps p _ _ H1) as G. destruct (get p (u_map st)), (get p (u_map st')); try contradiction; [cbn [rsame]; constructor; assumption|].
    specialize (HL _ _ _ E). destruct (load p) as [s|m|], (load' p) as [s'|m'|]; try contradiction; cbn [rbind rsame]; auto.
    constructor; cbn [u_map u_check u_graph]; [apply put_maps; [left; reflexivity|exact H1]|assumption|]. constructor; [split; [reflexivity|exact HL]|exact H3].
  Qed.
  Lemma node_same path top n st st' : same st st' -> rsame2 (used_node find load path top n st) (used_node find load' path top n st').
  Proof.
    intros H. destruct n; cbn [used_node]; try (destruct top); try (split; [exact H|reflexivity]).
    - destruct (find path0 path) as [q|m|] eqn:E; cbn [rbind]; try (cbn; auto; fail). destruct (str_eqb path q); [reflexivity|]. rewrite (sm_graph _ _ H). destruct (existsb _ (u_graph st)); [reflexivity|].
      assert (H' : same {| u_map := u_map st; u_check := u_check st; u_graph := u_graph st ++ [(path, q)] |} {| u_map := u_map st'; u_check := u_check st'; u_graph := u_graph st ++ [(path, q)] |}) by (destruct H; constructor; auto).
      pose proof (add_same _ _ _ _ _ E H') as K. destruct (add_to_check load q _), (add_to_check load' q _); cbn [rsame] in K; try contradiction; cbn [rbind rsame2]; auto.
    - destruct (find path0 path) as [q|m|] eqn:E; cbn [rbind]; try (cbn; auto; fail). pose proof (add_same _ _ _ _ _ E H) as K. destruct (add_to_check load q _), (add_to_check load' q _); cbn [rsame] in K; try contradiction; cbn [rbind rsame2]; auto.
    - destruct (find path0 path) as [q|m|] eqn:E; cbn [rbind]; try (cbn; auto; fail). pose proof (add_same _ _ _ _ _ E H) as K. destruct (add_to_check load q _), (add_to_check load' q _); cbn [rsame] in K; try contradiction; cbn [rbind rsame2]; auto.
    - destruct (find path0 path) as [q|m|] eqn:E; cbn [rbind]; try (cbn; auto; fail). pose proof (add_same _ _ _ _ _ E H) as K. destruct (add_to_check load q _), (add_to_check load' q _); cbn [rsame] in K; try contradiction; cbn [rbind rsame2]; auto.
  Qed.
  Lemma mute_node ld path top n st : mute n -> exists more, used_node find ld path top n st = Ok (st, more) /\ Forall (Forall mute) more.
  Proof.
    intros H. pose proof (H false false n (in_here _ _)) as H0.
    assert (K : forall more, (forall ns m, In ns more -> In m ns -> exists b b', child b n b' m) -> Forall (Forall mute) more).
    { intros more C. apply Forall_forall. intros ns Hn. apply Forall_forall. intros m Hm. destruct (C ns m Hn Hm) as (b & b' & D). eapply mute_child; eassumption. }
    destruct n; try contradiction; cbn [used_node]; (eexists; split; [reflexivity|]); try solve [apply Forall_nil]; apply K; intros ns m Hn Hm.
    - apply in_map_iff in Hn as ([w' t body] & <- & Hc). exists false, false. eapply ch_if; eassumption.
    - apply in_map_iff in Hn as ([w' t body] & <- & Hc). exists false, false. eapply ch_match; eassumption.
    - destruct Hn as [<-|[<-|[]]]; exists false; eexists; [eapply ch_body; eassumption|eapply ch_else; eassumption].
    - destruct Hn as [<-|[]]. exists false, false. eapply ch_filter; eassumption.
  Qed.
  Lemma nodes_lean path top : forall ns ns', leaner ns ns' -> forall st st' s s', same st st' -> stacked s s' ->
    rsame3 (used_nodes find load path top ns st s) (used_nodes find load' path top ns' st' s').
  Proof.
    induction 1 as [|n ns ns' T IH|n ns ns' HM T IH]; intros st st' s s' H K; cbn [used_nodes]; [split; assumption| |].
    - pose proof (node_same path top n st st' H) as N0. destruct (used_node find load path top n st) as [[s1 l]|m|], (used_node find load' path top n st') as [[s1' l']|m'|]; cbn [rsame2] in N0; try contradiction; cbn [rbind rsame3]; auto.
      destruct N0 as [N0 ->]. apply IH; [exact N0|apply stacked_same, K].
    - destruct (mute_node load' path top n st' HM) as (more & -> & F). cbn [rbind]. apply IH; [exact H|]. apply stacked_more; [apply Forall_rev, F|exact K].
  Qed.
  Lemma nodes_mute ld path top : forall ns st s, Forall mute ns -> exists more, used_nodes find ld path top ns st s = Ok (st, more ++ s) /\ Forall (Forall mute) more.
  Proof.
    induction ns as [|n ns IH]; intros c s F; [exists []; split; [reflexivity|constructor]|]. inversion F as [|? ? H1 H2]; subst. cbn [used_nodes]. destruct (mute_node ld path top n c H1) as (more & -> & G). cbn [rbind].
    destruct (IH c (rev more ++ s) H2) as (m2 & -> & G2). exists (m2 ++ rev more). rewrite <- app_assoc. split; [reflexivity|]. apply Forall_app. split; [exact G2|apply Forall_rev, G].
  Qed.
  Lemma stack_lean path : forall f' s s', stacked s s' -> forall f st st', same st st' -> used_file find load f path false s st <> GFuel -> used_file find load' f' path false s' st' <> GFuel ->
    gsame (used_file find load f path false s st) (used_file find load' f' path false s' st').
  Proof.
    induction f' as [|f' IH]; intros s s' H f st st' HS H1 H2; destruct H as [|ns s s' H|ns s s' HM H]; try (destruct f; exact HS); try (destruct H2; reflexivity).
    - destruct f as [|f]; [destruct H1; reflexivity|]. cbn [used_file] in *. pose proof (nodes_lean path false ns ns (leaner_refl ns) st st' s s' HS H) as K.
      destruct (used_nodes find load path false ns st s) as [[c1 s1]|m|], (used_nodes find load' path false ns st' s') as [[c2 s2]|m'|]; cbn [rsame3] in K; try contradiction; cbn [of_res gbind gsame] in *; auto.
      destruct K as [K1 K2]. apply IH; assumption.
    - cbn [used_file] in *. destruct (nodes_mute load' path false ns st' s' HM) as (more & E & F). rewrite E in *. cbn [of_res gbind] in *. apply IH; [apply stacked_more; assumption|exact HS|exact H1|exact H2].
  Qed.
  Lemma file_lean path ns ns' st st' : lean ns ns' -> same st st' ->
    gsame (used_file find load (Datatypes.S (nodes_size ns)) path true [ns] st) (used_file find load' (Datatypes.S (nodes_size ns')) path true [ns'] st').
  Proof.
    intros L H. assert (E1 : used_file find load (Datatypes.S (nodes_size ns)) path true [ns] st <> GFuel) by (apply used_file_fuel; [exact parse|cbn [weight fold_right]; lia]).
    assert (E2 : used_file find load' (Datatypes.S (nodes_size ns')) path true [ns'] st' <> GFuel) by (apply used_file_fuel; [exact parse|cbn [weight fold_right]; lia]).
    cbn [used_file] in *. pose proof (nodes_lean path true ns ns' (lean_leaner _ _ L) st st' [] [] H sd_nil) as K.
    destruct (used_nodes find load path true ns st []) as [[c1 s1]|m|], (used_nodes find load' path true ns' st' []) as [[c2 s2]|m'|]; cbn [rsame3] in K; try contradiction; cbn [of_res gbind gsame] in *; auto.
    destruct K as [K1 K2]. apply stack_lean; assumption.
  Qed.
  Definition found (r r' : gres (list (str * list node))) : Prop := match r, r' with GOk l, GOk l' => maps l l' | GErr m, GErr m' => m = m' | GPanic, GPanic | GFuel, GFuel => True | _, _ => False end.
  Lemma loop_lean : forall fuel st st', same st st' -> found (used_loop find load parse fuel st) (used_loop find load' parse' fuel st').
  Proof.
    induction fuel as [|f IH]; intros st st' [H1 H2 H3]; cbn [used_loop]; destruct H3 as [|[p s] [p' s'] l l' [Hp Hs] H3]; try exact H1; [exact I|]. cbn [fst snd] in Hp, Hs. subst p'.
    destruct (parse s) as [ns|m|], (parse' s') as [ns'|m'|]; cbn [read_alike] in Hs; try contradiction; cbn [of_res gbind found]; auto.
    assert (H' : same {| u_map := u_map st; u_check := l; u_graph := u_graph st |} {| u_map := u_map st'; u_check := l'; u_graph := u_graph st' |}) by (constructor; assumption).
    pose proof (file_lean p ns ns' _ _ Hs H') as K. destruct (used_file find load _ p true [ns] _) as [x|m| |], (used_file find load' _ p true [ns'] _) as [x'|m'| |]; cbn [gsame] in K; try contradiction; cbn [gbind found]; auto.
    apply IH. destruct K as [K1 K2 K3]. constructor; cbn [u_map u_check u_graph]; [apply put_maps; assumption|assumption|assumption].
  Qed.
  Lemma search_lean fuel path src src' : read_alike (parse src) (parse' src') -> found (find_used_templates find load parse fuel path src) (find_used_templates find load' parse' fuel path src').
  Proof. intros H. apply loop_lean. constructor; cbn [u_map u_check u_graph]; [constructor|reflexivity|]. constructor; [split; [reflexivity|exact H]|constructor]. Qed.
End Search.

(** C71.  Two projects that differ in the texts of templates only, each text of the one being read as that of the other without some
    nodes at the top of templates with a parent: the same code, or the same error. *)
Theorem C71_project w w' d files depth a cfg i src src' : other_files w w' -> prepared w d a cfg i src -> prepared w' d a cfg i src' ->
  read_alike (parse_text w (i_syntax i) src) (parse_text w' (i_syntax i) src') ->
  (forall name from p, find_from w cfg name from = Ok p -> match o_read w p, o_read w' p with
    | Some s, Some s' => read_alike (parse_text w (i_syntax i) (get_template_source s)) (parse_text w' (i_syntax i) (get_template_source s'))
    | None, None => True | _, _ => False end) ->
  build_source w' files depth d = build_source w files depth d.
Proof.
  intros (W1 & W2 & W3 & W4 & W5 & W6 & W7 & W8 & W9 & W10 & W11 & W12) (toml & P1 & P2 & P3 & P4 & P5) (toml' & P1' & P2' & P3' & P4' & P5') HS HF.
  assert (EF : find_from w' cfg = find_from w cfg) by (unfold find_from; rewrite W2, W3, W5; reflexivity).
  assert (S1 : (match i_source i with SSource s => Ok s | SPath _ => load w (i_path i) end) = Ok src) by (destruct (i_source i); congruence).
  assert (S2 : (match i_source i with SSource s => Ok s | SPath _ => load w' (i_path i) end) = Ok src') by (destruct (i_source i); congruence).
  unfold build_source. rewrite P1. cbn [of_res gbind]. rewrite P2, P2'. cbn [of_res gbind]. rewrite P3, P3'. cbn [of_res gbind]. rewrite P4, P4'. cbn [of_res gbind]. rewrite S1, S2. cbn [of_res gbind]. rewrite EF.
  assert (K : found (find_used_templates (find_from w cfg) (load w) (parse_text w (i_syntax i)) files (i_path i) src) (find_used_templates (find_from w cfg) (load w') (parse_text w' (i_syntax i)) files (i_path i) src')).
  { apply search_lean; [|exact HS]. intros name from p E. specialize (HF _ _ _ E). unfold load, agree. destruct (o_read w p), (o_read w' p); try contradiction; [exact HF|reflexivity]. }
  destruct (find_used_templates _ (load w) _ _ _ _) as [ts|m| |], (find_used_templates _ (load w') _ _ _ _) as [ts'|m'| |]; cbn [found] in K; try contradiction; cbn [gbind]; try congruence.
  assert (EN : map fst ts' = map fst ts) by (clear - K; induction K as [|x y l l' [H _] F IH]; [reflexivity|]; cbn [map]; congruence).
  assert (EC : forall l, canonical_paths w' (is_inline (i_source i)) (i_path i) l = canonical_paths w (is_inline (i_source i)) (i_path i) l).
  { induction l as [|p l IH]; [reflexivity|]. cbn [canonical_paths]. rewrite IH, W6. reflexivity. }
  rewrite EN, EC. destruct (canonical_paths _ _ _ _) as [ps|m|]; cbn [of_res gbind]; [|reflexivity..].
  assert (EI : ginput_of w' cfg i = ginput_of w cfg i) by (unfold ginput_of; rewrite W11; reflexivity). rewrite EI.
  rewrite <- (C71_outside_blocks (ginput_of w cfg i) (find_from w cfg) depth ts ts').
  - destruct (build_template _ _ depth ts) as [[code size]|m| |]; cbn [gbind]; [|reflexivity..]. rewrite W10. do 2 f_equal. injection W12 as F1 F2 F3 F4.
    unfold frame_of, extension_to_mime_type. rewrite W4, W7, F1, F2, F3, F4. reflexivity.
  - clear - K. induction K as [|[p x] [p' y] l l' [H1 H2] F IH]; constructor; [|exact IH]. split; [symmetry; exact H1|]. destruct H2 as [H2|[H2 H3]]; [left; exact H2|right; split; [exact H2|apply leaner_thinner, H3]].
Qed.
Print Assumptions C71_project.

(** ** The whole macro *)
Lemma skeleton_same w w' d d' : other_files w w' -> d_ident d' = d_ident d -> d_impl d' = d_impl d -> d_impl_rocket d' = d_impl_rocket d -> d_where d' = d_where d -> build_skeleton w' d' = build_skeleton w d.
Proof.
  intros (W1 & W2 & W3 & W4 & W5 & W6 & W7 & W8 & W9 & W10 & W11 & W12) D1 D2 D3 D4. injection W12 as F1 F2 F3 F4.
  unfold build_skeleton, config_of, input_of, ginput_of, find_from, frame_of, extension_to_mime_type. rewrite W1, W2, W3, W4, W5, W7, W10, W11, F1, F2, F3, F4, D1, D2, D3, D4. reflexivity.
Qed.
Lemma derive_same w w' d d' files depth : other_files w w' -> o_xid_start w' = o_xid_start w -> o_xid_continue w' = o_xid_continue w ->
  d_ident d' = d_ident d -> d_impl d' = d_impl d -> d_impl_rocket d' = d_impl_rocket d -> d_where d' = d_where d ->
  build_source w' files depth d' = build_source w files depth d -> derive_template w' files depth d' = derive_template w files depth d.
Proof. intros W X1 X2 D1 D2 D3 D4 E. unfold derive_template, unwrap_tokens. rewrite E, (skeleton_same w w' d d' W D1 D2 D3 D4), X1, X2. reflexivity. Qed.

(** C71.  The same for the whole macro: what the compiler gets, also after an error, is the same. *)
Theorem C71_macro w w' d files depth a cfg i src src' : other_files w w' -> o_xid_start w' = o_xid_start w -> o_xid_continue w' = o_xid_continue w -> prepared w d a cfg i src -> prepared w' d a cfg i src' ->
  read_alike (parse_text w (i_syntax i) src) (parse_text w' (i_syntax i) src') ->
  (forall name from p, find_from w cfg name from = Ok p -> match o_read w p, o_read w' p with
    | Some s, Some s' => read_alike (parse_text w (i_syntax i) (get_template_source s)) (parse_text w' (i_syntax i) (get_template_source s'))
    | None, None => True | _, _ => False end) ->
  derive_template w' files depth d = derive_template w files depth d.
Proof. intros W X1 X2 P P' HS HF. apply derive_same; auto. eapply C71_project; eassumption. Qed.
Print Assumptions C71_macro.
(** C70.  And so it is for projects written with other delimiters and blanks. *)
Theorem C70_macro w w' d d' files depth a a' cfg cfg' i i' src src' : other_files w w' -> o_xid_start w' = o_xid_start w -> o_xid_continue w' = o_xid_continue w ->
  prepared w d a cfg i src -> prepared w' d' a' cfg' i' src' -> alike d d' a a' cfg cfg' i i' ->
  readable (i_syntax i) -> readable (i_syntax i') -> respelled (o_lowercase w) (i_syntax i) (i_syntax i') src src' ->
  (forall name from p, find_from w cfg name from = Ok p -> match o_read w p, o_read w' p with
    | Some s, Some s' => respelled (o_lowercase w) (i_syntax i) (i_syntax i') (get_template_source s) (get_template_source s')
    | None, None => True | _, _ => False end) ->
  derive_template w' files depth d' = derive_template w files depth d.
Proof. intros W X1 X2 P P' A R R' HS HF. pose proof (C70_spelling w w' d d' files depth a a' cfg cfg' i i' src src' W P P' A R R' HS HF) as E. destruct A as (D & _). injection D as D1 D2 D3 D4. apply derive_same; assumption. Qed.
Print Assumptions C70_macro.

(** ** Example *)
Lemma read_alike_refl r : read_alike r r.
Proof. destruct r; cbn; auto. left. reflexivity. Qed.
Definition page : str := lit "{% extends ""b.html"" %}Hi {{ x }}{% block c %}y{% endblock %}".
Definition thin_page : str := lit "{% extends ""b.html"" %}{% block c %}y{% endblock %}".
Definition base : str := lit "<{% block c %}{% endblock %}>".
Definition project : list (str * str) := [(lit "/p/askama.toml", lit "x"); (lit "/p/templates/a.html", page); (lit "/p/templates/b.html", base)].
Definition thin_project : list (str * str) := [(lit "/p/askama.toml", lit "x"); (lit "/p/templates/a.html", thin_page); (lit "/p/templates/b.html", base)].
Definition nodes_of (w : outside) (s : str) : list node := match parse_text w default_syntax s with Ok ns => ns | _ => [] end.
Definition page_nodes : list node := Eval vm_compute in nodes_of (shelf project) page.
Definition thin_nodes : list node := Eval vm_compute in nodes_of (shelf thin_project) thin_page.
Lemma mute_lit t : mute (NLit t).
Proof. intros b b' m K. inversion K as [|? ? ? ? ? ? C]; subst; [exact I|inversion C]. Qed.
Lemma mute_expr w e : mute (NExpr w e).
Proof. intros b b' m K. inversion K as [|? ? ? ? ? ? C]; subst; [exact I|inversion C]. Qed.
Lemma pages_alike : read_alike (parse_text (shelf thin_project) default_syntax thin_page) (parse_text (shelf project) default_syntax page).
Proof.
  assert (E1 : parse_text (shelf thin_project) default_syntax thin_page = Ok thin_nodes) by (vm_compute; reflexivity).
  assert (E2 : parse_text (shelf project) default_syntax page = Ok page_nodes) by (vm_compute; reflexivity).
  rewrite E1, E2. right. split; [eexists; left; reflexivity|]. unfold thin_nodes, page_nodes.
  apply le_keep. apply le_drop; [apply mute_lit|]. apply le_drop; [apply mute_expr|]. apply le_keep. apply le_nil.
Qed.
Example C71_project_example : page <> thin_page /\ (exists s, derive_template (shelf project) 9 9 item1 = GOk (Code s)) /\ (exists s, build_source (shelf project) 9 9 item1 = GOk s) /\ other_files (shelf thin_project) (shelf project) /\
  prepared (shelf thin_project) item1 a1 the_config (the_input default_syntax) thin_page /\ prepared (shelf project) item1 a1 the_config (the_input default_syntax) page /\
  read_alike (parse_text (shelf thin_project) default_syntax thin_page) (parse_text (shelf project) default_syntax page) /\
  (forall name from p, find_from (shelf thin_project) the_config name from = Ok p -> match o_read (shelf thin_project) p, o_read (shelf project) p with
    | Some s, Some s' => read_alike (parse_text (shelf thin_project) default_syntax (get_template_source s)) (parse_text (shelf project) default_syntax (get_template_source s'))
    | None, None => True | _, _ => False end).
Proof.
  split; [vm_compute; discriminate|]. split; [eexists; vm_compute; reflexivity|]. split; [eexists; vm_compute; reflexivity|]. split; [repeat split|]. split; [exists (lit "x"); repeat split; vm_compute; reflexivity|]. split; [exists (lit "x"); repeat split; vm_compute; reflexivity|].
  split; [exact pages_alike|]. intros name from p E. apply found_exists in E. apply mem_str_In in E. destruct E as [<-|[<-|[<-|[]]]].
  - exact (read_alike_refl (parse_text (shelf project) default_syntax (get_template_source (lit "x")))).
  - exact pages_alike.
  - exact (read_alike_refl (parse_text (shelf project) default_syntax (get_template_source base))).
Qed.
