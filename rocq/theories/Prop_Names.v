(** * C74 and C75 for whole projects: other names in the files.  No definition here models code in /repo. *)
From Coq Require Import ZArith Lia.
From Verif Require Import Base Nom Ws Config ConfigFacts Ast ParseNode GenExpr Heritage Gen HeritageSpec HeritageFacts UsedFacts EndFacts TreeSpec GenText Derive ParseTests Prop_Spell Prop_Rename Prop_BlockNames.
From Verif Require Prop_Outline.
Local Open Scope N_scope.

Section Search.
  (** A change of trees that keeps which files they name *)
  Variable t : node -> node.
  Hypothesis HT : forall find load path top n st, used_node find load path top (t n) st = rm (fun y => (fst y, map (map t) (snd y))) (used_node find load path top n st).
  Definition change_all (ts : list (str * list node)) : list (str * list node) := map (fun x => (fst x, map t (snd x))) ts.
  Variables (find : str -> str -> res str) (load load' : str -> res str) (parse parse' : str -> res (list node)).
  Definition agree (r r' : res str) : Prop := match r, r' with Ok s, Ok s' => parse' s' = rm (map t) (parse s) | Err m, Err m' => m = m' | Panic, Panic => True | _, _ => False end.
  Hypothesis HL : forall name from p, find name from = Ok p -> agree (load p) (load' p).
  Record same (st st' : fstate) : Prop := { sm_map : u_map st' = change_all (u_map st); sm_graph : u_graph st' = u_graph st;
    sm_check : Forall2 (fun x y => fst y = fst x /\ parse' (snd y) = rm (map t) (parse (snd x))) (u_check st) (u_check st') }.
  Definition rsame (r r' : res fstate) : Prop := match r, r' with Ok s, Ok s' => same s s' | Err m, Err m' => m = m' | Panic, Panic => True | _, _ => False end.
  Definition rsame2 (r r' : res (fstate * list (list node))) : Prop :=
    match r, r' with Ok (s, l), Ok (s', l') => same s s' /\ l' = map (map t) l | Err m, Err m' => m = m' | Panic, Panic => True | _, _ => False end.
  Definition gsame (r r' : gres fstate) : Prop := match r, r' with GOk s, GOk s' => same s s' | GErr m, GErr m' => m = m' | GPanic, GPanic => True | _, _ => False end.
  Lemma get_change p m : get p (change_all m) = option_map (map t) (get p m).
  Proof. exact (get_mapk idk (map t) p m id_inj). Qed.
  Lemma put_change p ns m : put p (map t ns) (change_all m) = change_all (put p ns m).
  Proof. exact (put_mapk idk (map t) p ns m id_inj). Qed.
  Lemma add_same name from p st st' : find name from = Ok p -> same st st' -> rsame (add_to_check load p st) (add_to_check load' p st').
  Proof.
    intros E [H1 H2 H3]. unfold add_to_check. rewrite H1, get_change. destruct (get p (u_map st)); cbn [option_map]; [cbn [rsame]; constructor; assumption|].
    specialize (HL _ _ _ E). destruct (load p) as [s|m|], (load' p) as [s'|m'|]; try contradiction; cbn [rbind rsame]; auto.
    constructor; cbn [u_map u_check u_graph]; [apply (put_change p [])|assumption|]. constructor; [split; [reflexivity|exact HL]|exact H3].
  Qed.
  (** The same node, in states that agree *)
  Lemma node_same path top n st st' : same st st' ->
    match used_node find load path top n st, used_node find load' path top n st' with Ok (s, l), Ok (s', l') => same s s' /\ l' = l | Err m, Err m' => m = m' | Panic, Panic => True | _, _ => False end.
  Proof.
    intros H. destruct n; cbn [used_node]; try (destruct top); try (split; [exact H|reflexivity]).
    - destruct (find path0 path) as [q|m|] eqn:E; cbn [rbind]; try (cbn; auto; fail). destruct (str_eqb path q); [reflexivity|]. rewrite (sm_graph _ _ H). destruct (existsb _ (u_graph st)); [reflexivity|].
      assert (H' : same {| u_map := u_map st; u_check := u_check st; u_graph := u_graph st ++ [(path, q)] |} {| u_map := u_map st'; u_check := u_check st'; u_graph := u_graph st ++ [(path, q)] |}) by (destruct H; constructor; auto).
      pose proof (add_same _ _ _ _ _ E H') as K. destruct (add_to_check load q _), (add_to_check load' q _); cbn [rsame] in K; try contradiction; cbn [rbind]; auto.
    - destruct (find path0 path) as [q|m|] eqn:E; cbn [rbind]; try (cbn; auto; fail). pose proof (add_same _ _ _ _ _ E H) as K. destruct (add_to_check load q _), (add_to_check load' q _); cbn [rsame] in K; try contradiction; cbn [rbind]; auto.
    - destruct (find path0 path) as [q|m|] eqn:E; cbn [rbind]; try (cbn; auto; fail). pose proof (add_same _ _ _ _ _ E H) as K. destruct (add_to_check load q _), (add_to_check load' q _); cbn [rsame] in K; try contradiction; cbn [rbind]; auto.
    - destruct (find path0 path) as [q|m|] eqn:E; cbn [rbind]; try (cbn; auto; fail). pose proof (add_same _ _ _ _ _ E H) as K. destruct (add_to_check load q _), (add_to_check load' q _); cbn [rsame] in K; try contradiction; cbn [rbind]; auto.
  Qed.
  Lemma nodes_same path top : forall ns st st' s, same st st' -> rsame2 (used_nodes find load path top ns st s) (used_nodes find load' path top (map t ns) st' (map (map t) s)).
  Proof.
    induction ns as [|n ns IH]; intros st st' s H; cbn [map used_nodes]; [split; [exact H|reflexivity]|]. rewrite HT.
    pose proof (node_same path top n st st' H) as N0. destruct (used_node find load path top n st) as [[s1 l]|m|], (used_node find load' path top n st') as [[s1' l']|m'|]; try contradiction; cbn [rm rbind rsame2 fst snd]; auto.
    destruct N0 as [N0 ->]. rewrite <- map_rev, <- map_app. apply IH, N0.
  Qed.
  Lemma stack_same path : forall f f' top s st st', same st st' -> used_file find load f path top s st <> GFuel -> used_file find load' f' path top (map (map t) s) st' <> GFuel ->
    gsame (used_file find load f path top s st) (used_file find load' f' path top (map (map t) s) st').
  Proof.
    induction f as [|f IH]; intros f' top [|ns s] st st' HS H1 H2; try (destruct f'; exact HS); [destruct H1; reflexivity|]. destruct f' as [|f']; [destruct H2; reflexivity|]. cbn [map used_file] in *.
    pose proof (nodes_same path top ns st st' s HS) as K.
    destruct (used_nodes find load path top ns st s) as [[c1 s1]|m|], (used_nodes find load' path top (map t ns) st' (map (map t) s)) as [[c2 s2]|m'|]; cbn [rsame2] in K; try contradiction; cbn [of_res gbind gsame] in *; auto.
    destruct K as [K1 ->]. apply IH; assumption.
  Qed.
  Lemma file_same path ns st st' : same st st' ->
    gsame (used_file find load (Datatypes.S (nodes_size ns)) path true [ns] st) (used_file find load' (Datatypes.S (nodes_size (map t ns))) path true [map t ns] st').
  Proof.
    intros H. assert (E1 : used_file find load (Datatypes.S (nodes_size ns)) path true [ns] st <> GFuel) by (apply used_file_fuel; [exact parse|cbn [weight fold_right]; lia]).
    assert (E2 : used_file find load' (Datatypes.S (nodes_size (map t ns))) path true [map t ns] st' <> GFuel) by (apply used_file_fuel; [exact parse|cbn [weight fold_right]; lia]).
    exact (stack_same path _ _ true [ns] st st' H E1 E2).
  Qed.
  Definition found (r r' : gres (list (str * list node))) : Prop := r' = gm change_all r.
  Lemma loop_same : forall fuel st st', same st st' -> found (used_loop find load parse fuel st) (used_loop find load' parse' fuel st').
  Proof.
    unfold found. induction fuel as [|f IH]; intros st st' [H1 H2 H3]; cbn [used_loop]; destruct H3 as [|[p s] [p' s'] l l' [Hp Hs] H3]; cbn [gm]; try (f_equal; exact H1). cbn [fst snd] in Hp, Hs. subst p'.
    rewrite Hs. destruct (parse s) as [ns|m|]; cbn [rm of_res gbind gm]; try reflexivity.
    assert (H' : same {| u_map := u_map st; u_check := l; u_graph := u_graph st |} {| u_map := u_map st'; u_check := l'; u_graph := u_graph st' |}) by (constructor; assumption).
    pose proof (file_same p ns _ _ H') as K. destruct (used_file find load _ p true [ns] _) as [x|m| |], (used_file find load' _ p true [map t ns] _) as [x'|m'| |]; cbn [gsame] in K; try contradiction; cbn [gbind gm]; try congruence.
    apply IH. destruct K as [K1 K2 K3]. constructor; cbn [u_map u_check u_graph]; [rewrite K1; apply put_change|assumption|assumption].
  Qed.
  Lemma search_same fuel path src src' : parse' src' = rm (map t) (parse src) -> found (find_used_templates find load parse fuel path src) (find_used_templates find load' parse' fuel path src').
  Proof. intros H. apply loop_same. constructor; cbn [u_map u_check u_graph]; [reflexivity|reflexivity|]. constructor; [split; [reflexivity|exact H]|constructor]. Qed.
End Search.

(** Two projects that differ in the texts of templates only, whose trees are changed by [t] *)
Definition changed_files (t : node -> node) (w w' : outside) (cfg : config) (syn : syntax) : Prop :=
  forall name from p, find_from w cfg name from = Ok p -> match o_read w p, o_read w' p with
    | Some s, Some s' => parse_text w' syn (get_template_source s') = rm (map t) (parse_text w syn (get_template_source s))
    | None, None => True | _, _ => False end.
(** Two calls of the derive macro that differ in the block asked for only *)
Definition other_block (d d' : item) (a a' : template_args) (i i' : template_input) : Prop :=
  (d_ident d', d_impl d', d_impl_rocket d', d_where d') = (d_ident d, d_impl d, d_impl_rocket d, d_where d) /\ a_ext a' = a_ext a /\
  i_path i' = i_path i /\ i_syntax i' = i_syntax i /\ i_escaper i' = i_escaper i /\ i_mime_ext i' = i_mime_ext i /\ is_inline (i_source i') = is_inline (i_source i).
Lemma projects_same t w w' d d' files depth a a' cfg i i' src src' :
  (forall find load path top n st, used_node find load path top (t n) st = rm (fun y => (fst y, map (map t) (snd y))) (used_node find load path top n st)) ->
  (forall find ts, build_template (ginput_of w cfg i') find depth (change_all t ts) = build_template (ginput_of w cfg i) find depth ts) ->
  other_files w w' -> o_xid_start w' = o_xid_start w -> o_xid_continue w' = o_xid_continue w -> prepared w d a cfg i src -> prepared w' d' a' cfg i' src' -> other_block d d' a a' i i' ->
  parse_text w' (i_syntax i) src' = rm (map t) (parse_text w (i_syntax i) src) -> changed_files t w w' cfg (i_syntax i) ->
  derive_template w' files depth d' = derive_template w files depth d.
Proof.
  intros HT HB W X1 X2 (toml & P1 & P2 & P3 & P4 & P5) (toml' & P1' & P2' & P3' & P4' & P5') (D & I1 & I2 & I3 & I4 & I5 & I6) HS HF. injection D as D1 D2 D3 D4. apply Prop_Outline.derive_same; auto. destruct W as (W1 & W2 & W3 & W4 & W5 & W6 & W7 & W8 & W9 & W10 & W11 & W12).
  assert (EF : find_from w' cfg = find_from w cfg) by (unfold find_from; rewrite W2, W3, W5; reflexivity).
  assert (S1 : (match i_source i with SSource s => Ok s | SPath _ => load w (i_path i) end) = Ok src) by (destruct (i_source i); congruence).
  assert (S2 : (match i_source i' with SSource s => Ok s | SPath _ => load w' (i_path i') end) = Ok src') by (destruct (i_source i'); congruence).
  unfold build_source. rewrite P1, P1'. cbn [of_res gbind]. rewrite P2, P2'. cbn [of_res gbind]. rewrite P3, P3'. cbn [of_res gbind]. rewrite P4, P4'. cbn [of_res gbind]. rewrite S1, S2. cbn [of_res gbind]. rewrite EF, I2, I3, I6.
  assert (K : found t (find_used_templates (find_from w cfg) (load w) (parse_text w (i_syntax i)) files (i_path i) src) (find_used_templates (find_from w cfg) (load w') (parse_text w' (i_syntax i)) files (i_path i) src')).
  { apply search_same; [exact HT| |exact HS]. intros name from p E. specialize (HF _ _ _ E). unfold load, agree. destruct (o_read w p), (o_read w' p); try contradiction; [exact HF|reflexivity]. }
  rewrite K. destruct (find_used_templates _ (load w) _ _ _ _) as [ts|m| |]; cbn [gm gbind]; [|reflexivity..].
  assert (EN : map fst (change_all t ts) = map fst ts) by (unfold change_all; rewrite map_map; reflexivity).
  assert (EC : forall l, canonical_paths w' (is_inline (i_source i)) (i_path i) l = canonical_paths w (is_inline (i_source i)) (i_path i) l).
  { induction l as [|p l IH]; [reflexivity|]. cbn [canonical_paths]. rewrite IH, W6. reflexivity. }
  rewrite EN, EC. destruct (canonical_paths _ _ _ _) as [ps|m|]; cbn [of_res gbind]; [|reflexivity..].
  assert (EI : ginput_of w' cfg i' = ginput_of w cfg i') by (unfold ginput_of; rewrite W11; reflexivity). rewrite EI, HB.
  destruct (build_template _ _ depth ts) as [[code size]|m| |]; cbn [gbind]; [|reflexivity..]. rewrite W10. do 2 f_equal. injection W12 as F1 F2 F3 F4.
  unfold frame_of, extension_to_mime_type. rewrite W4, W7, F1, F2, F3, F4, I1, I2, I5, D1, D2, D3, D4. reflexivity.
Qed.
Lemma project_same t w w' d files depth a cfg i src src' :
  (forall find load path top n st, used_node find load path top (t n) st = rm (fun y => (fst y, map (map t) (snd y))) (used_node find load path top n st)) ->
  (forall find ts, build_template (ginput_of w cfg i) find depth (change_all t ts) = build_template (ginput_of w cfg i) find depth ts) ->
  other_files w w' -> o_xid_start w' = o_xid_start w -> o_xid_continue w' = o_xid_continue w -> prepared w d a cfg i src -> prepared w' d a cfg i src' ->
  parse_text w' (i_syntax i) src' = rm (map t) (parse_text w (i_syntax i) src) -> changed_files t w w' cfg (i_syntax i) ->
  derive_template w' files depth d = derive_template w files depth d.
Proof. intros HT HB W X1 X2 P P' HS HF. eapply projects_same; try eassumption. repeat split. Qed.

Lemma rename_uses r q find load path top n st : used_node find load path top (rename r q n) st = rm (fun y => (fst y, map (map (rename r q)) (snd y))) (used_node find load path top n st).
Proof.
  destruct n; cbn [rename used_node]; try (destruct top); try reflexivity; cbn [rm fst snd]; rewrite ?map_map; try (do 2 f_equal; apply map_ext; intros [w' c ns]; reflexivity);
    destruct (find path0 path) as [p|m|]; cbn [rbind rm]; try reflexivity; try (destruct (str_eqb path p); [reflexivity|]; destruct (existsb _ _); [reflexivity|]); destruct (add_to_check load p _); reflexivity.
Qed.
Lemma bren_uses b find load path top n st : used_node find load path top (bren b n) st = rm (fun y => (fst y, map (map (bren b)) (snd y))) (used_node find load path top n st).
Proof.
  destruct n; cbn [bren used_node]; try (destruct top); try reflexivity; cbn [rm fst snd]; rewrite ?map_map; try (do 2 f_equal; apply map_ext; intros [w' c ns]; reflexivity);
    destruct (find path0 path) as [p|m|]; cbn [rbind rm]; try reflexivity; try (destruct (str_eqb path p); [reflexivity|]; destruct (existsb _ _); [reflexivity|]); destruct (add_to_check load p _); reflexivity.
Qed.

(** C74.  Two projects that differ in the texts of templates only, and there in the names of macros and scopes: the derive macro gives the
    compiler the same, where messages are without the names in them. *)
Theorem C74_project r q w w' d files depth a cfg i src src' :
  (forall x y, r x = r y -> x = y) -> (forall x y, q x = q y -> x = y) -> (forall x, r x = lit "super" <-> x = lit "super") ->
  other_files w w' -> o_xid_start w' = o_xid_start w -> o_xid_continue w' = o_xid_continue w -> prepared w d a cfg i src -> prepared w' d a cfg i src' ->
  parse_text w' (i_syntax i) src' = rm (map (rename r q)) (parse_text w (i_syntax i) src) -> changed_files (rename r q) w w' cfg (i_syntax i) ->
  derive_template w' files depth d = derive_template w files depth d.
Proof. intros H1 H2 H3. apply project_same; [intros; apply rename_uses|]. intros find ts. apply C74_names; assumption. Qed.
Print Assumptions C74_project.

(** C75.  Likewise for the names of blocks, where the block asked for gets its other name, too. *)
Theorem C75_project b w w' d d' files depth a a' cfg i i' src src' :
  (forall x y, b x = b y -> x = y) -> i_block i' = option_map b (i_block i) -> other_block d d' a a' i i' ->
  other_files w w' -> o_xid_start w' = o_xid_start w -> o_xid_continue w' = o_xid_continue w -> prepared w d a cfg i src -> prepared w' d' a' cfg i' src' ->
  parse_text w' (i_syntax i) src' = rm (map (bren b)) (parse_text w (i_syntax i) src) -> changed_files (bren b) w w' cfg (i_syntax i) ->
  derive_template w' files depth d' = derive_template w files depth d.
Proof.
  intros H1 H2 H3 W X1 X2 P P' HS HF. eapply projects_same; try eassumption; [intros; apply bren_uses|]. intros find ts. rewrite <- (C75_block_names b (ginput_of w cfg i) find depth ts H1). destruct H3 as (_ & _ & I2 & _ & I4 & _ & _).
  unfold binp, ginput_of. cbn [f_escaper f_escapers f_json f_ws f_block f_path]. rewrite H2, I2, I4. reflexivity.
Qed.
Print Assumptions C75_project.

(** ** Examples *)
Definition shelved (page lib : str) : outside := shelf [(lit "/p/askama.toml", lit "x"); (lit "/p/templates/a.html", page); (lit "/p/templates/b.html", lib)].
(** In a shelf of three files, it is enough to look at these. *)
Lemma shelved_files t page page' lib lib' :
  parse_text (shelved page' lib') default_syntax (get_template_source page') = rm (map t) (parse_text (shelved page lib) default_syntax (get_template_source page)) ->
  parse_text (shelved page' lib') default_syntax (get_template_source lib') = rm (map t) (parse_text (shelved page lib) default_syntax (get_template_source lib)) ->
  parse_text (shelved page' lib') default_syntax (get_template_source (lit "x")) = rm (map t) (parse_text (shelved page lib) default_syntax (get_template_source (lit "x"))) ->
  changed_files t (shelved page lib) (shelved page' lib') the_config default_syntax.
Proof. intros H1 H2 H3 name from p E. apply found_exists in E. apply mem_str_In in E. destruct E as [<-|[<-|[<-|[]]]]; [exact H3|exact H1|exact H2]. Qed.
Definition mpage : str := lit "{% import ""b.html"" as l %}{% macro hi() %}own{% endmacro %}{% call l::hi(x) %}{% call hi() %}".
Definition mpage' : str := lit "{% import ""b.html"" as sl %}{% macro mhi() %}own{% endmacro %}{% call sl::mhi(x) %}{% call mhi() %}".
Definition mlib : str := lit "{% macro hi(a) %}<{{ a }}>{% endmacro %}".
Definition mlib' : str := lit "{% macro mhi(a) %}<{{ a }}>{% endmacro %}".
Example C74_project_example : (exists s, derive_template (shelved mpage mlib) 9 9 item1 = GOk (Code s)) /\ other_files (shelved mpage mlib) (shelved mpage' mlib') /\
  prepared (shelved mpage mlib) item1 a1 the_config (the_input default_syntax) mpage /\ prepared (shelved mpage' mlib') item1 a1 the_config (the_input default_syntax) mpage' /\
  parse_text (shelved mpage' mlib') default_syntax mpage' = rm (map (rename C74_r C74_q)) (parse_text (shelved mpage mlib) default_syntax mpage) /\
  changed_files (rename C74_r C74_q) (shelved mpage mlib) (shelved mpage' mlib') the_config default_syntax.
Proof.
  split; [eexists; vm_compute; reflexivity|]. split; [repeat split|]. split; [exists (lit "x"); repeat split; vm_compute; reflexivity|]. split; [exists (lit "x"); repeat split; vm_compute; reflexivity|].
  split; [vm_compute; reflexivity|]. apply shelved_files; vm_compute; reflexivity.
Qed.
Definition bpage : str := lit "{% extends ""b.html"" %}{% block main %}{{ x }}{% call super() %}{% endblock %}".
Definition bpage' : str := lit "{% extends ""b.html"" %}{% block bmain %}{{ x }}{% call super() %}{% endblock %}".
Definition blib : str := lit "<{% block main %}base{% endblock main %}>".
Definition blib' : str := lit "<{% block bmain %}base{% endblock bmain %}>".
Definition block_item (x : str) : item := the_item [MNameValue (Some (lit "block")) (VStr x)].
Definition block_args (x : str) : template_args := match template_args_new (d_attrs (block_item x)) with Ok a => a | _ => fallback end.
Definition block_input (x : str) : template_input :=
  {| i_path := lit "/p/templates/a.html"; i_syntax := default_syntax; i_escaper := lit "::askama::Html"; i_mime_ext := lit "html"; i_block := Some x; i_source := SPath (lit "a.html") |}.
Example C75_project_example : (exists s, derive_template (shelved bpage blib) 9 9 (block_item (lit "main")) = GOk (Code s)) /\ other_files (shelved bpage blib) (shelved bpage' blib') /\
  i_block (block_input (lit "bmain")) = option_map C75_b (i_block (block_input (lit "main"))) /\
  other_block (block_item (lit "main")) (block_item (lit "bmain")) (block_args (lit "main")) (block_args (lit "bmain")) (block_input (lit "main")) (block_input (lit "bmain")) /\
  prepared (shelved bpage blib) (block_item (lit "main")) (block_args (lit "main")) the_config (block_input (lit "main")) bpage /\
  prepared (shelved bpage' blib') (block_item (lit "bmain")) (block_args (lit "bmain")) the_config (block_input (lit "bmain")) bpage' /\
  parse_text (shelved bpage' blib') default_syntax bpage' = rm (map (bren C75_b)) (parse_text (shelved bpage blib) default_syntax bpage) /\
  changed_files (bren C75_b) (shelved bpage blib) (shelved bpage' blib') the_config default_syntax.
Proof.
  split; [eexists; vm_compute; reflexivity|]. split; [repeat split|]. split; [vm_compute; reflexivity|]. split; [repeat split; vm_compute; reflexivity|].
  split; [exists (lit "x"); repeat split; vm_compute; reflexivity|]. split; [exists (lit "x"); repeat split; vm_compute; reflexivity|].
  split; [vm_compute; reflexivity|]. apply shelved_files; vm_compute; reflexivity.
Qed.
