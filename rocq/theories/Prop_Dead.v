(** * C73 for whole projects: macros that are never called may be rewritten in the files.  No definition here models code in /repo. *)
From Coq Require Import ZArith Lia.
From Verif Require Import Base Nom Ws Config ConfigFacts Ast ParseNode GenExpr Heritage Gen HeritageSpec HeritageFacts UsedFacts EndFacts TreeSpec GenText Derive ParseTests Prop_Spell Prop_Unused.
From Verif Require GroupGen Prop_Move Prop_Outline.
Local Open Scope N_scope.

(** A node that includes no file *)
Definition includes_none (n : node) : Prop := forall b b' m, inside b n b' m -> match m with NInclude _ _ => False | _ => True end.
Section Called.
(** The names that may be called, as in Prop_Unused.v *)
Variable U : str -> Prop.
Inductive rewritten_in_file : node -> node -> Prop :=
| rf_same n : known_top U n -> rewritten_in_file n n
| rf_macro w1 w1' name args args' body body' w2 w2' : ~ U name -> ws_l w1' = ws_l w1 -> ws_r w2' = ws_r w2 -> Forall includes_none body -> Forall includes_none body' ->
    rewritten_in_file (NMacro w1 name args body w2) (NMacro w1' name args' body' w2').
(** Read alike: two such templates, or the same error *)
Definition read_near (r r' : res (list node)) : Prop := match r, r' with Ok ns, Ok ns' => Forall2 rewritten_in_file ns ns' | Err m, Err m' => m = m' | Panic, Panic => True | _, _ => False end.

Lemma file_rewritten ns ns' : Forall2 rewritten_in_file ns ns' -> Forall2 (rewritten U) ns ns'.
Proof. induction 1 as [|n n' ns ns' H F IH]; constructor; [|exact IH]. destruct H; [apply rw_same|apply rw_macro]; assumption. Qed.
Lemma none_child b n b' m : includes_none n -> child b n b' m -> includes_none m.
Proof. intros H C b1 b2 k K. destruct (GroupGen.inside_any _ _ _ _ K b') as [b3 K']. apply (H b b3). eapply in_child; eassumption. Qed.

(** ** The search *)
Section Search.
  Variables (find : str -> str -> res str) (load load' : str -> res str) (parse parse' : str -> res (list node)).
  Definition agree (r r' : res str) : Prop := match r, r' with Ok s, Ok s' => read_near (parse s) (parse' s') | Err m, Err m' => m = m' | Panic, Panic => True | _, _ => False end.
  Hypothesis HL : forall name from p, find name from = Ok p -> agree (load p) (load' p).
  Definition maps : list (str * list node) -> list (str * list node) -> Prop := Forall2 (fun x y => fst y = fst x /\ Forall2 rewritten_in_file (snd x) (snd y)).
  Record same (st st' : fstate) : Prop := { sm_map : maps (u_map st) (u_map st'); sm_graph : u_graph st' = u_graph st;
    sm_check : Forall2 (fun x y => fst y = fst x /\ read_near (parse (snd x)) (parse' (snd y))) (u_check st) (u_check st') }.
  Inductive stacked : list (list node) -> list (list node) -> Prop :=
  | sd_nil : stacked [] []
  | sd_keep ns s s' : stacked s s' -> stacked (ns :: s) (ns :: s')
  | sd_left ns s s' : Forall includes_none ns -> stacked s s' -> stacked (ns :: s) s'
  | sd_right ns s s' : Forall includes_none ns -> stacked s s' -> stacked s (ns :: s').
  Lemma stacked_same l s s' : stacked s s' -> stacked (l ++ s) (l ++ s').
  Proof. intros H. induction l as [|x l IH]; [exact H|apply sd_keep; exact IH]. Qed.
  Lemma stacked_left l s s' : Forall (Forall includes_none) l -> stacked s s' -> stacked (l ++ s) s'.
  Proof. intros F H. induction F as [|x l H1 F IH]; [exact H|apply sd_left; assumption]. Qed.
  Lemma stacked_right l s s' : Forall (Forall includes_none) l -> stacked s s' -> stacked s (l ++ s').
  Proof. intros F H. induction F as [|x l H1 F IH]; [exact H|apply sd_right; assumption]. Qed.
  Definition rsame (r r' : res fstate) : Prop := match r, r' with Ok s, Ok s' => same s s' | Err m, Err m' => m = m' | Panic, Panic => True | _, _ => False end.
  Definition rsame2 (r r' : res (fstate * list (list node))) : Prop :=
    match r, r' with Ok (s, l), Ok (s', l') => same s s' /\ l' = l | Err m, Err m' => m = m' | Panic, Panic => True | _, _ => False end.
  Definition rsame3 (r r' : res (fstate * list (list node))) : Prop :=
    match r, r' with Ok (s, l), Ok (s', l') => same s s' /\ stacked l l' | Err m, Err m' => m = m' | Panic, Panic => True | _, _ => False end.
  Definition gsame (r r' : gres fstate) : Prop := match r, r' with GOk s, GOk s' => same s s' | GErr m, GErr m' => m = m' | GPanic, GPanic => True | _, _ => False end.
  Lemma get_maps p m m' : maps m m' -> match get p m, get p m' with Some _, Some _ | None, None => True | _, _ => False end.
  Proof. induction 1 as [|[q ns] [q' ns'] l l' [H1 H2] F IH]; [exact I|]. cbn [fst] in H1. subst q'. cbn [get]. destruct (str_eqb p q); [exact I|exact IH]. Qed.
  Lemma put_maps p ns ns' m m' : Forall2 rewritten_in_file ns ns' -> maps m m' -> maps (put p ns m) (put p ns' m').
  Proof.
    intros H. induction 1 as [|[q x] [q' x'] l l' [H1 H2] F IH]; [constructor; [split; [reflexivity|exact H]|constructor]|]. cbn [fst snd] in H1, H2. subst q'. cbn [put].
    destruct (str_eqb p q); (constructor; [split; [reflexivity|assumption]|]); [exact F|exact IH].
  Qed.
  Lemma add_same name from p st st' : find name from = Ok p -> same st st' -> rsame (add_to_check load p st) (add_to_check load' p st').
  Proof.
    intros E [H1 H2 H3]. unfold add_to_check. pose proof (get_maps p _ _ H1) as G. destruct (get p (u_map st)), (get p (u_map st')); try contradiction; [cbn [rsame]; constructor; assumption|].
    specialize (HL _ _ _ E). destruct (load p) as [s|m|], (load' p) as [s'|m'|]; try contradiction; cbn [rbind rsame]; auto.
    constructor; cbn [u_map u_check u_graph]; [apply put_maps; [constructor|exact H1]|assumption|]. constructor; [split; [reflexivity|exact HL]|exact H3].
  Qed.
  Lemma node_same path top n st st' : same st st' -> rsame2 (used_node find load path top n st) (used_node find load' path top n st').
  Proof.
    intros H. destruct n; cbn [used_node]; try (destruct top); try (split; [exact H|reflexivity]).
    - destruct (find path0 path) as [q|m|] eqn:E; cbn [rbind]; try (cbn; auto; fail). destruct (str_eqb path q); [reflexivity|]. rewrite (sm_graph _ _ H). destruct (existsb _ (u_graph st)); [reflexivity|].
      assert (H' : same {| u_map := u_map st; u_check := u_check st; u_graph := u_graph st ++ [(path, q)] |} {| u_map := u_map st'; u_check := u_check st'; u_graph := u_graph st ++ [(path, q)] |}) by (destruct H; constructor; auto).
      pose proof (add_same _ _ _ _ _ E H') as K. destruct (add_to_check load q _), (add_to_check load' q _); cbn [rsame] in K; try contradiction; cbn [rbind rsame2]; auto.
    - destruct (find path0 path) as [q|m|] eqn:E; cbn [rbind]; try (cbn; auto; fail). pose proof (add_same _ _ _ _ _ E H) as K. destruct (add_to_check load q _), (add_to_check load' q _); cbn [rsame] in K; try contradiction; cbn [rbind rsame2]; auto.
    - destruct (find path0 path) as [q|m|] eqn:E; cbn [rbind]; try (cbn; auto; fail). pose proof (add_same _ _ _ _ _ E H) as K. destruct (add_to_check load q _), (add_to_check load' q _); cbn [rsame] in K; try contradiction; cbn [rbind rsame2]; auto.
    - destruct (find path0 path) as [q|m|] eqn:E; cbn [rbind]; try (cbn; auto; fail). pose proof (add_same _ _ _ _ _ E H) as K. destruct (add_to_check load q _), (add_to_check load' q _); cbn [rsame] in K; try contradiction; cbn [rbind rsame2]; auto.
  Qed.
  Lemma none_node ld path n st : includes_none n -> exists more, used_node find ld path false n st = Ok (st, more) /\ Forall (Forall includes_none) more.
  Proof.
    intros H. pose proof (H false false n (in_here _ _)) as H0.
    assert (K : forall more, (forall ns m, In ns more -> In m ns -> exists b b', child b n b' m) -> Forall (Forall includes_none) more).
    { intros more C. apply Forall_forall. intros ns Hn. apply Forall_forall. intros m Hm. destruct (C ns m Hn Hm) as (b & b' & D). eapply none_child; eassumption. }
    destruct n; try contradiction; cbn [used_node]; (eexists; split; [reflexivity|]); try solve [apply Forall_nil]; apply K; intros ns m Hn Hm.
    - apply in_map_iff in Hn as ([w' t body] & <- & Hc). exists false, false. eapply ch_if; eassumption.
    - apply in_map_iff in Hn as ([w' t body] & <- & Hc). exists false, false. eapply ch_match; eassumption.
    - destruct Hn as [<-|[<-|[]]]; exists false; eexists; [eapply ch_body; eassumption|eapply ch_else; eassumption].
    - destruct Hn as [<-|[]]. exists false, false. eapply ch_block; eassumption.
    - destruct Hn as [<-|[]]. exists false, false. eapply ch_filter; eassumption.
  Qed.
  Lemma nodes_alike path top : forall ns st st' s s', same st st' -> stacked s s' -> rsame3 (used_nodes find load path top ns st s) (used_nodes find load' path top ns st' s').
  Proof.
    induction ns as [|n ns IH]; intros st st' s s' H K; cbn [used_nodes]; [split; assumption|].
    pose proof (node_same path top n st st' H) as N0. destruct (used_node find load path top n st) as [[s1 l]|m|], (used_node find load' path top n st') as [[s1' l']|m'|]; cbn [rsame2] in N0; try contradiction; cbn [rbind rsame3]; auto.
    destruct N0 as [N0 ->]. apply IH; [exact N0|apply stacked_same, K].
  Qed.
  Lemma nodes_top path : forall ns ns', Forall2 rewritten_in_file ns ns' -> forall st st' s s', same st st' -> stacked s s' ->
    rsame3 (used_nodes find load path true ns st s) (used_nodes find load' path true ns' st' s').
  Proof.
    induction 1 as [|n n' ns ns' R F IH]; intros st st' s s' H K; cbn [used_nodes]; [split; assumption|]. destruct R as [n _|w1 w1' name args args' body body' w2 w2' _ _ _ B B'].
    - pose proof (node_same path true n st st' H) as N0. destruct (used_node find load path true n st) as [[s1 l]|m|], (used_node find load' path true n st') as [[s1' l']|m'|]; cbn [rsame2] in N0; try contradiction; cbn [rbind rsame3]; auto.
      destruct N0 as [N0 ->]. apply IH; [exact N0|apply stacked_same, K].
    - cbn [used_node rbind rev app]. apply IH; [exact H|]. apply sd_left; [exact B|]. apply sd_right; [exact B'|exact K].
  Qed.
  Lemma nodes_none ld path : forall ns st s, Forall includes_none ns -> exists more, used_nodes find ld path false ns st s = Ok (st, more ++ s) /\ Forall (Forall includes_none) more.
  Proof.
    induction ns as [|n ns IH]; intros c s F; [exists []; split; [reflexivity|constructor]|]. inversion F as [|? ? H1 H2]; subst. cbn [used_nodes]. destruct (none_node ld path n c H1) as (more & -> & G). cbn [rbind].
    destruct (IH c (rev more ++ s) H2) as (m2 & -> & G2). exists (m2 ++ rev more). rewrite <- app_assoc. split; [reflexivity|]. apply Forall_app. split; [exact G2|apply Forall_rev, G].
  Qed.
  Lemma stack_alike path : forall k f f' s s', (f + f' <= k)%nat -> stacked s s' -> forall st st', same st st' -> used_file find load f path false s st <> GFuel -> used_file find load' f' path false s' st' <> GFuel ->
    gsame (used_file find load f path false s st) (used_file find load' f' path false s' st').
  Proof.
    induction k as [|k IH]; intros f f' s s' B H st st' HS H1 H2; destruct H as [|ns s s' H|ns s s' HN H|ns s s' HN H]; try (destruct f, f'; exact HS).
    - destruct f; [destruct H1; reflexivity|lia].
    - destruct f; [destruct H1; reflexivity|lia].
    - destruct f'; [destruct H2; reflexivity|lia].
    - destruct f as [|f]; [destruct H1; reflexivity|]. destruct f' as [|f']; [destruct H2; reflexivity|]. cbn [used_file] in *. pose proof (nodes_alike path false ns st st' s s' HS H) as K.
      destruct (used_nodes find load path false ns st s) as [[c1 s1]|m|], (used_nodes find load' path false ns st' s') as [[c2 s2]|m'|]; cbn [rsame3] in K; try contradiction; cbn [of_res gbind gsame] in *; auto.
      destruct K as [K1 K2]. apply IH; try assumption; lia.
    - destruct f as [|f]; [destruct H1; reflexivity|]. cbn [used_file] in H1 |- *. destruct (nodes_none load path ns st s HN) as (more & E & F). rewrite E in *. cbn [of_res gbind] in *. apply IH; [lia|apply stacked_left; assumption|exact HS|exact H1|exact H2].
    - destruct f' as [|f']; [destruct H2; reflexivity|]. change (used_file find load' (Datatypes.S f') path false (ns :: s') st') with (let* (st2, stack2) := of_res (used_nodes find load' path false ns st' s') in used_file find load' f' path false stack2 st2) in *.
      destruct (nodes_none load' path ns st' s' HN) as (more & E & F). rewrite E in *. cbn [of_res gbind] in *. apply IH; [lia|apply stacked_right; assumption|exact HS|exact H1|exact H2].
  Qed.
  Lemma file_alike path ns ns' st st' : Forall2 rewritten_in_file ns ns' -> same st st' ->
    gsame (used_file find load (Datatypes.S (nodes_size ns)) path true [ns] st) (used_file find load' (Datatypes.S (nodes_size ns')) path true [ns'] st').
  Proof.
    intros L H. assert (E1 : used_file find load (Datatypes.S (nodes_size ns)) path true [ns] st <> GFuel) by (apply used_file_fuel; [exact parse|cbn [weight fold_right]; lia]).
    assert (E2 : used_file find load' (Datatypes.S (nodes_size ns')) path true [ns'] st' <> GFuel) by (apply used_file_fuel; [exact parse|cbn [weight fold_right]; lia]).
    cbn [used_file] in *. pose proof (nodes_top path ns ns' L st st' [] [] H sd_nil) as K.
    destruct (used_nodes find load path true ns st []) as [[c1 s1]|m|], (used_nodes find load' path true ns' st' []) as [[c2 s2]|m'|]; cbn [rsame3] in K; try contradiction; cbn [of_res gbind gsame] in *; auto.
    destruct K as [K1 K2]. eapply stack_alike; try eassumption. apply le_n.
  Qed.
  Definition found (r r' : gres (list (str * list node))) : Prop := match r, r' with GOk l, GOk l' => maps l l' | GErr m, GErr m' => m = m' | GPanic, GPanic | GFuel, GFuel => True | _, _ => False end.
  Lemma loop_alike : forall fuel st st', same st st' -> found (used_loop find load parse fuel st) (used_loop find load' parse' fuel st').
  Proof.
    induction fuel as [|f IH]; intros st st' [H1 H2 H3]; cbn [used_loop]; destruct H3 as [|[p s] [p' s'] l l' [Hp Hs] H3]; try exact H1; [exact I|]. cbn [fst snd] in Hp, Hs. subst p'.
    destruct (parse s) as [ns|m|], (parse' s') as [ns'|m'|]; cbn [read_near] in Hs; try contradiction; cbn [of_res gbind found]; auto.
    assert (H' : same {| u_map := u_map st; u_check := l; u_graph := u_graph st |} {| u_map := u_map st'; u_check := l'; u_graph := u_graph st' |}) by (constructor; assumption).
    pose proof (file_alike p ns ns' _ _ Hs H') as K. destruct (used_file find load _ p true [ns] _) as [x|m| |], (used_file find load' _ p true [ns'] _) as [x'|m'| |]; cbn [gsame] in K; try contradiction; cbn [gbind found]; auto.
    apply IH. destruct K as [K1 K2 K3]. constructor; cbn [u_map u_check u_graph]; [apply put_maps; assumption|assumption|assumption].
  Qed.
  Lemma search_alike fuel path src src' : read_near (parse src) (parse' src') -> found (find_used_templates find load parse fuel path src) (find_used_templates find load' parse' fuel path src').
  Proof. intros H. apply loop_alike. constructor; cbn [u_map u_check u_graph]; [constructor|reflexivity|]. constructor; [split; [reflexivity|exact H]|constructor]. Qed.
End Search.
End Called.

(** C73.  Two projects that differ in the texts of templates only, and there in macros that are never called and include nothing: the
    macro gives the compiler the same. *)
Theorem C73_project U w w' d files depth a cfg i src src' : other_files w w' -> o_xid_start w' = o_xid_start w -> o_xid_continue w' = o_xid_continue w -> prepared w d a cfg i src -> prepared w' d a cfg i src' ->
  read_near U (parse_text w (i_syntax i) src) (parse_text w' (i_syntax i) src') ->
  (forall name from p, find_from w cfg name from = Ok p -> match o_read w p, o_read w' p with
    | Some s, Some s' => read_near U (parse_text w (i_syntax i) (get_template_source s)) (parse_text w' (i_syntax i) (get_template_source s'))
    | None, None => True | _, _ => False end) ->
  derive_template w' files depth d = derive_template w files depth d.
Proof.
  intros W X1 X2 (toml & P1 & P2 & P3 & P4 & P5) (toml' & P1' & P2' & P3' & P4' & P5') HS HF. apply Prop_Outline.derive_same; auto. destruct W as (W1 & W2 & W3 & W4 & W5 & W6 & W7 & W8 & W9 & W10 & W11 & W12).
  assert (EF : find_from w' cfg = find_from w cfg) by (unfold find_from; rewrite W2, W3, W5; reflexivity).
  assert (S1 : (match i_source i with SSource s => Ok s | SPath _ => load w (i_path i) end) = Ok src) by (destruct (i_source i); congruence).
  assert (S2 : (match i_source i with SSource s => Ok s | SPath _ => load w' (i_path i) end) = Ok src') by (destruct (i_source i); congruence).
  unfold build_source. rewrite P1. cbn [of_res gbind]. rewrite P2, P2'. cbn [of_res gbind]. rewrite P3, P3'. cbn [of_res gbind]. rewrite P4, P4'. cbn [of_res gbind]. rewrite S1, S2. cbn [of_res gbind]. rewrite EF.
  assert (K : found U (find_used_templates (find_from w cfg) (load w) (parse_text w (i_syntax i)) files (i_path i) src) (find_used_templates (find_from w cfg) (load w') (parse_text w' (i_syntax i)) files (i_path i) src')).
  { apply search_alike; [|exact HS]. intros name from p E. specialize (HF _ _ _ E). unfold load, agree. destruct (o_read w p), (o_read w' p); try contradiction; [exact HF|reflexivity]. }
  destruct (find_used_templates _ (load w) _ _ _ _) as [ts|m| |], (find_used_templates _ (load w') _ _ _ _) as [ts'|m'| |]; cbn [found] in K; try contradiction; cbn [gbind]; try congruence.
  assert (EN : map fst ts' = map fst ts) by (clear - K; induction K as [|x y l l' [H _] F IH]; [reflexivity|]; cbn [map]; congruence).
  assert (EC : forall l, canonical_paths w' (is_inline (i_source i)) (i_path i) l = canonical_paths w (is_inline (i_source i)) (i_path i) l).
  { induction l as [|p l IH]; [reflexivity|]. cbn [canonical_paths]. rewrite IH, W6. reflexivity. }
  rewrite EN, EC. destruct (canonical_paths _ _ _ _) as [ps|m|]; cbn [of_res gbind]; [|reflexivity..].
  assert (EI : ginput_of w' cfg i = ginput_of w cfg i) by (unfold ginput_of; rewrite W11; reflexivity). rewrite EI.
  rewrite <- (C73_never_called U (ginput_of w cfg i) (find_from w cfg) depth ts ts').
  - destruct (build_template _ _ depth ts) as [[code size]|m| |]; cbn [gbind]; [|reflexivity..]. rewrite W10. do 2 f_equal. injection W12 as F1 F2 F3 F4.
    unfold frame_of, extension_to_mime_type. rewrite W4, W7, F1, F2, F3, F4. reflexivity.
  - clear - K. induction K as [|[p x] [p' y] l l' [H1 H2] F IH]; constructor; [|exact IH]. split; [symmetry; exact H1|]. apply file_rewritten, H2.
Qed.
Print Assumptions C73_project.

(** ** Example *)
Definition page : str := lit "{% import ""b.html"" as l %}{% call l::used(x) %}".
Definition lib : str := lit "{% macro used(a) %}<{{ a }}>{% endmacro %}{% macro dead() %}old{% endmacro %}".
Definition other_lib : str := lit "{% macro used(a) %}<{{ a }}>{% endmacro %}{% macro dead(b, c) %}{{ b }}{% call none() %}{% endmacro %}".
Definition shelved (l : str) : list (str * str) := [(lit "/p/askama.toml", lit "x"); (lit "/p/templates/a.html", page); (lit "/p/templates/b.html", l)].
Definition before_w : outside := shelf (shelved lib).
Definition after_w : outside := shelf (shelved other_lib).
Definition page_nodes : list node := Eval vm_compute in Prop_Outline.nodes_of before_w page.
Definition lib_nodes : list node := Eval vm_compute in Prop_Outline.nodes_of before_w lib.
Definition other_nodes : list node := Eval vm_compute in Prop_Outline.nodes_of after_w other_lib.
Definition called (s : str) : Prop := s = lit "used".
Lemma none_leaf n : (match n with NLit _ | NExpr _ _ | NCall _ _ _ _ => True | _ => False end) -> includes_none n.
Proof. intros H b b' m K. inversion K as [|? ? ? ? ? ? C]; subst; [destruct m; try contradiction; exact I|]. destruct n; try contradiction; inversion C. Qed.
Lemma page_near : read_near called (parse_text before_w default_syntax page) (parse_text after_w default_syntax page).
Proof.
  assert (E1 : parse_text before_w default_syntax page = Ok page_nodes) by (vm_compute; reflexivity). assert (E2 : parse_text after_w default_syntax page = Ok page_nodes) by (vm_compute; reflexivity).
  rewrite E1, E2. unfold page_nodes. constructor; [apply rf_same, known_leaf; exact I|]. constructor; [apply rf_same, known_leaf; reflexivity|constructor].
Qed.
Lemma lib_near : read_near called (parse_text before_w default_syntax lib) (parse_text after_w default_syntax other_lib).
Proof.
  assert (E1 : parse_text before_w default_syntax lib = Ok lib_nodes) by (vm_compute; reflexivity). assert (E2 : parse_text after_w default_syntax other_lib = Ok other_nodes) by (vm_compute; reflexivity).
  rewrite E1, E2. unfold lib_nodes, other_nodes. constructor; [apply rf_same; intros _; repeat (constructor; [apply known_leaf; exact I|]); constructor|]. constructor; [|constructor].
  apply rf_macro; [intros H; discriminate H|reflexivity|reflexivity| |]; repeat (constructor; [apply none_leaf; exact I|]); constructor.
Qed.
Lemma toml_near : read_near called (parse_text before_w default_syntax (lit "x")) (parse_text after_w default_syntax (lit "x")).
Proof.
  assert (E1 : parse_text before_w default_syntax (lit "x") = Ok [NLit {| lws := []; lval := lit "x"; rws := [] |}]) by (vm_compute; reflexivity).
  assert (E2 : parse_text after_w default_syntax (lit "x") = Ok [NLit {| lws := []; lval := lit "x"; rws := [] |}]) by (vm_compute; reflexivity).
  rewrite E1, E2. constructor; [apply rf_same, known_leaf; exact I|constructor].
Qed.
Example C73_project_example : lib <> other_lib /\ (exists s, derive_template before_w 9 9 item1 = GOk (Code s)) /\ other_files before_w after_w /\
  prepared before_w item1 a1 the_config (the_input default_syntax) page /\ prepared after_w item1 a1 the_config (the_input default_syntax) page /\
  read_near called (parse_text before_w default_syntax page) (parse_text after_w default_syntax page) /\
  (forall name from p, find_from before_w the_config name from = Ok p -> match o_read before_w p, o_read after_w p with
    | Some s, Some s' => read_near called (parse_text before_w default_syntax (get_template_source s)) (parse_text after_w default_syntax (get_template_source s'))
    | None, None => True | _, _ => False end).
Proof.
  split; [vm_compute; discriminate|]. split; [eexists; vm_compute; reflexivity|]. split; [repeat split|]. split; [exists (lit "x"); repeat split; vm_compute; reflexivity|]. split; [exists (lit "x"); repeat split; vm_compute; reflexivity|].
  split; [exact page_near|]. intros name from p E. apply found_exists in E. apply mem_str_In in E. destruct E as [<-|[<-|[<-|[]]]]; [exact toml_near|exact page_near|exact lib_near].
Qed.
