(** * Delimiters and blanks in tags are only spelling: C70.  No definition here models code in /repo. *)
From Coq Require Import ZArith Lia.
From Verif Require Import Base Nom Ws Config ConfigFacts Ast Lex ParseExpr ParseNode NomFacts GenExpr Heritage Gen HeritageSpec HeritageFacts EndFacts LitSpec ParseSpec TextFacts TreeSpec PrecSpec WriteSpec WriteRound GenText Derive ParseTests.
From Verif Require Prop_Write Prop_Move.
Local Open Scope N_scope.

(** A syntax with which written templates can be read back (C57) *)
Definition readable (sy : syntax) : Prop := syntax_valid sy /\ block_end_ok (block_end sy) /\ plain_end (expr_end sy).
(** The same template, written with one syntax and with another *)
Definition respelled (lc : N -> bool) (sy sy' : syntax) (s s' : str) : Prop := exists ns, writes_template lc sy ns s /\ writes_template lc sy' ns s'.
(** Worlds that differ in the contents of files and in how a configuration is read only *)
Definition other_files (w w' : outside) : Prop :=
  o_root w' = o_root w /\ o_join w' = o_join w /\ o_with_file_name w' = o_with_file_name w /\ o_name_of w' = o_name_of w /\ o_exists w' = o_exists w /\
  o_canonical w' = o_canonical w /\ o_mime w' = o_mime w /\ o_lowercase w' = o_lowercase w /\ o_debug w' = o_debug w /\ o_plain w' = o_plain w /\ o_json w' = o_json w /\
  (o_actix w', o_axum w', o_rocket w', o_warp w') = (o_actix w, o_axum w, o_rocket w, o_warp w).
(** The steps before the search: the attributes, the configuration, the input and the source of the template are fine *)
Definition prepared (w : outside) (d : item) (a : template_args) (cfg : config) (i : template_input) (src : str) : Prop :=
  exists toml, template_args_new (d_attrs d) = Ok a /\ read_config_file w (a_config a) = Ok toml /\ config_of w toml (a_whitespace a) = Ok cfg /\
    input_of w d cfg a = Ok i /\ match i_source i with SSource s => src = s | SPath _ => load w (i_path i) = Ok src end.
(** Both are set up alike but for the syntax and the text *)
Definition alike (d d' : item) (a a' : template_args) (cfg cfg' : config) (i i' : template_input) : Prop :=
  (d_ident d', d_impl d', d_impl_rocket d', d_where d') = (d_ident d, d_impl d, d_impl_rocket d, d_where d) /\ a_ext a' = a_ext a /\
  dirs cfg' = dirs cfg /\ escapers cfg' = escapers cfg /\ Config.whitespace cfg' = Config.whitespace cfg /\
  i_path i' = i_path i /\ i_escaper i' = i_escaper i /\ i_mime_ext i' = i_mime_ext i /\ i_block i' = i_block i /\ is_inline (i_source i') = is_inline (i_source i).

(** ** The search reads the same templates *)
Section Search.
  Variables (find : str -> str -> res str) (load load' : str -> res str) (parse parse' : str -> res (list node)).
  Definition agree (r r' : res str) : Prop := match r, r' with Ok s, Ok s' => parse s = parse' s' | Err m, Err m' => m = m' | Panic, Panic => True | _, _ => False end.
  Hypothesis HL : forall name from p, find name from = Ok p -> agree (load p) (load' p).
  Record same (st st' : fstate) : Prop := { sm_map : u_map st' = u_map st; sm_graph : u_graph st' = u_graph st;
    sm_check : Forall2 (fun x y => fst y = fst x /\ parse (snd x) = parse' (snd y)) (u_check st) (u_check st') }.
  Definition rsame (r r' : res fstate) : Prop := match r, r' with Ok s, Ok s' => same s s' | Err m, Err m' => m = m' | Panic, Panic => True | _, _ => False end.
  Definition rsame2 (r r' : res (fstate * list (list node))) : Prop :=
    match r, r' with Ok (s, l), Ok (s', l') => same s s' /\ l' = l | Err m, Err m' => m = m' | Panic, Panic => True | _, _ => False end.
  Definition gsame (r r' : gres fstate) : Prop := match r, r' with GOk s, GOk s' => same s s' | GErr m, GErr m' => m = m' | GPanic, GPanic | GFuel, GFuel => True | _, _ => False end.
  Lemma add_same name from p st st' : find name from = Ok p -> same st st' -> rsame (add_to_check load p st) (add_to_check load' p st').
  Proof.
    intros E [H1 H2 H3]. unfold add_to_check. rewrite H1. destruct (get p (u_map st)); [constructor; assumption|]. specialize (HL _ _ _ E). destruct (load p) as [s|m|], (load' p) as [s'|m'|]; try contradiction; cbn [rbind rsame]; auto.
    constructor; cbn [u_map u_check u_graph]; [congruence|assumption|]. constructor; [split; [reflexivity|exact HL]|exact H3].
  Qed.
  Lemma node_same path top n st st' : same st st' -> rsame2 (used_node find load path top n st) (used_node find load' path top n st').
  Proof.
    intros H. destruct n; cbn [used_node]; try (destruct top); try (split; [exact H|reflexivity]).
    - destruct (find path0 path) as [q|m|] eqn:E; cbn [rbind]; try (cbn; auto; fail). destruct (str_eqb path q); [reflexivity|]. rewrite (sm_graph _ _ H). destruct (existsb _ (u_graph st)); [reflexivity|].
      assert (H' : same {| u_map := u_map st; u_check := u_check st; u_graph := u_graph st ++ [(path, q)] |} {| u_map := u_map st'; u_check := u_check st'; u_graph := u_graph st ++ [(path, q)] |}) by (destruct H; constructor; auto).
      pose proof (add_same _ _ _ _ _ E H') as K. destruct (add_to_check load q _), (add_to_check load' q _); cbn [rsame] in K; try contradiction; cbn [rbind rsame2]; auto.
    - destruct (find path0 path) as [q|m|] eqn:E; cbn [rbind]; try (cbn; auto; fail). pose proof (add_same _ _ _ _ _ E H) as K. destruct (add_to_check load q _), (add_to_check load' q _); cbn [rsame] in K; try contradiction; cbn [rbind rsame2]; auto.
    - destruct (find path0 path) as [q|m|] eqn:E; cbn [rbind]; try (cbn; auto; fail). pose proof (add_same _ _ _ _ _ E H) as K. destruct (add_to_check load q _), (add_to_check load' q _); cbn [rsame] in K; try contradiction; cbn [rbind rsame2]; auto.
    - destruct (find path0 path) as [q|m|] eqn:E; cbn [rbind]; try (cbn; auto; fail). pose proof (add_same _ _ _ _ _ E H) as K. destruct (add_to_check load q _), (add_to_check load' q _); cbn [rsame] in K; try contradiction; cbn [rbind rsame2]; auto.
  Qed.
  Lemma nodes_same path top : forall ns st st' stack, same st st' -> rsame2 (used_nodes find load path top ns st stack) (used_nodes find load' path top ns st' stack).
  Proof.
    induction ns as [|n ns IH]; intros st st' stack H; [split; [exact H|reflexivity]|]. cbn [used_nodes]. pose proof (node_same path top n st st' H) as K.
    destruct (used_node find load path top n st) as [[s l]|m|], (used_node find load' path top n st') as [[s' l']|m'|]; cbn [rsame2] in K; try contradiction; cbn [rbind rsame2]; auto. destruct K as [K ->]. apply IH, K.
  Qed.
  Lemma file_same path : forall fuel top stack st st', same st st' -> gsame (used_file find load fuel path top stack st) (used_file find load' fuel path top stack st').
  Proof.
    induction fuel as [|f IH]; intros top stack st st' H; (destruct stack as [|ns stack]; [exact H|]); [exact I|]. cbn [used_file]. pose proof (nodes_same path top ns st st' stack H) as K.
    destruct (used_nodes find load path top ns st stack) as [[s l]|m|], (used_nodes find load' path top ns st' stack) as [[s' l']|m'|]; cbn [rsame2] in K; try contradiction; cbn [of_res gbind gsame]; auto. destruct K as [K ->]. apply IH, K.
  Qed.
  Lemma loop_same : forall fuel st st', same st st' -> used_loop find load' parse' fuel st' = used_loop find load parse fuel st.
  Proof.
    induction fuel as [|f IH]; intros st st' [H1 H2 H3]; cbn [used_loop]; destruct H3 as [|[p s] [p' s'] l l' [Hp Hs] H3]; try (rewrite H1; reflexivity); [reflexivity|]. cbn [fst snd] in Hp, Hs. subst p'. rewrite <- Hs.
    destruct (parse s) as [ns|m|]; cbn [of_res gbind]; [|reflexivity..].
    assert (H' : same {| u_map := u_map st; u_check := l; u_graph := u_graph st |} {| u_map := u_map st'; u_check := l'; u_graph := u_graph st' |}) by (constructor; assumption).
    pose proof (file_same p (Datatypes.S (nodes_size ns)) true [ns] _ _ H') as K. destruct (used_file find load _ p true [ns] _) as [x|m| |], (used_file find load' _ p true [ns] _) as [x'|m'| |]; cbn [gsame] in K; try contradiction; cbn [gbind]; try congruence.
    apply IH. destruct K as [K1 K2 K3]. constructor; cbn [u_map u_check u_graph]; [congruence|assumption|assumption].
  Qed.
  Lemma search_same fuel path src src' : parse src = parse' src' -> find_used_templates find load' parse' fuel path src' = find_used_templates find load parse fuel path src.
  Proof. intros H. apply loop_same. constructor; cbn [u_map u_check u_graph]; [reflexivity..|]. constructor; [split; [reflexivity|exact H]|constructor]. Qed.
End Search.

Lemma written_parse w sy ns s : readable sy -> writes_template (o_lowercase w) sy ns s -> parse_text w sy s = Ok ns.
Proof. intros (H1 & H2 & H3) H. unfold parse_text. rewrite (template_read _ _ _ H1 H2 H3 _ _ H). reflexivity. Qed.
(** C70.  The same templates with other delimiters, and other blanks in their tags: the same code, or the same error. *)
Theorem C70_spelling w w' d d' files depth a a' cfg cfg' i i' src src' : other_files w w' -> prepared w d a cfg i src -> prepared w' d' a' cfg' i' src' -> alike d d' a a' cfg cfg' i i' ->
  readable (i_syntax i) -> readable (i_syntax i') -> respelled (o_lowercase w) (i_syntax i) (i_syntax i') src src' ->
  (forall name from p, find_from w cfg name from = Ok p -> match o_read w p, o_read w' p with
    | Some s, Some s' => respelled (o_lowercase w) (i_syntax i) (i_syntax i') (get_template_source s) (get_template_source s')
    | None, None => True | _, _ => False end) ->
  build_source w' files depth d' = build_source w files depth d.
Proof.
  intros (W1 & W2 & W3 & W4 & W5 & W6 & W7 & W8 & W9 & W10 & W11 & W12) (toml & P1 & P2 & P3 & P4 & P5) (toml' & P1' & P2' & P3' & P4' & P5') (A1 & A2 & A3 & A4 & A5 & A6 & A7 & A8 & A9 & A10) R R' HS HF.
  assert (EF : find_from w' cfg' = find_from w cfg) by (unfold find_from; rewrite W2, W3, W5, A3; reflexivity).
  assert (EP : forall s s', respelled (o_lowercase w) (i_syntax i) (i_syntax i') s s' -> parse_text w (i_syntax i) s = parse_text w' (i_syntax i') s').
  { intros s s' (ns & H1 & H2). rewrite (written_parse w _ ns s R H1). rewrite <- W8 in H2. rewrite (written_parse w' _ ns s' R' H2). reflexivity. }
  assert (S1 : (match i_source i with SSource s => Ok s | SPath _ => load w (i_path i) end) = Ok src) by (destruct (i_source i); congruence).
  assert (S2 : (match i_source i' with SSource s => Ok s | SPath _ => load w' (i_path i') end) = Ok src') by (destruct (i_source i'); congruence).
  unfold build_source. rewrite P1, P1'. cbn [of_res gbind]. rewrite P2, P2'. cbn [of_res gbind]. rewrite P3, P3'. cbn [of_res gbind]. rewrite P4, P4'. cbn [of_res gbind]. rewrite S1, S2. cbn [of_res gbind]. rewrite EF, A6.
  rewrite (search_same (find_from w cfg) (load w) (load w') (parse_text w (i_syntax i)) (parse_text w' (i_syntax i'))) with (src := src).
  - destruct (find_used_templates _ _ _ files (i_path i) src) as [ts|m| |]; cbn [gbind]; [|reflexivity..].
    assert (EC : forall l, canonical_paths w' (is_inline (i_source i')) (i_path i) l = canonical_paths w (is_inline (i_source i)) (i_path i) l).
    { rewrite A10. induction l as [|p l IH]; [reflexivity|]. cbn [canonical_paths]. rewrite IH, W6. reflexivity. }
    rewrite EC. destruct (canonical_paths _ _ _ _) as [ps|m|]; cbn [of_res gbind]; [|reflexivity..].
    assert (EI : ginput_of w' cfg' i' = ginput_of w cfg i) by (unfold ginput_of; rewrite A4, A5, A6, A7, A9, W11; reflexivity). rewrite EI.
    destruct (build_template _ _ depth ts) as [[code size]|m| |]; cbn [gbind]; [|reflexivity..]. rewrite W10. do 2 f_equal. injection A1 as D1 D2 D3 D4. injection W12 as F1 F2 F3 F4.
    unfold frame_of, extension_to_mime_type. rewrite D1, D2, D3, D4, A2, A6, A8, W4, W7, F1, F2, F3, F4. reflexivity.
  - intros name from p E. specialize (HF _ _ _ E). unfold load, agree. destruct (o_read w p), (o_read w' p); try contradiction; [apply EP, HF|reflexivity].
  - apply EP, HS.
Qed.
Print Assumptions C70_spelling.

(** ** Example: a template and a file it includes, with the usual delimiters and with others that the configuration gives *)
Definition other_syntax : syntax :=
  {| block_start := lit "<#"; block_end := lit "#>"; expr_start := lit "${"; expr_end := lit "}$"; comment_start := lit "<!"; comment_end := lit "!>" |}.
Definition with_other : raw_config :=
  {| raw_general := None; raw_escapers := None;
     raw_syntaxes := Some [{| r_name := lit "other"; r_block_start := Some (lit "<#"); r_block_end := Some (lit "#>"); r_expr_start := Some (lit "${"); r_expr_end := Some (lit "}$");
                              r_comment_start := Some (lit "<!"); r_comment_end := Some (lit "!>") |}] |}.
Definition shelf (fs : list (str * str)) : outside :=
  {| o_root := Some (lit "/p"); o_join := Prop_Move.join_text; o_with_file_name := fun r n => Prop_Move.up_to_slash r [] [] ++ n;
     o_name_of := fun p => match Prop_Move.after_slash p [] with [] => None | n => Some n end;
     o_exists := fun p => mem_str p [lit "/p/askama.toml"; lit "/p/templates/a.html"; lit "/p/templates/b.html"]; o_read := fun p => get p fs; o_canonical := fun p => Some p;
     o_toml := fun _ => Some with_other; o_mime := fun x => if str_eqb x (lit "html") then lit "text/html" else lit "text/plain";
     o_lowercase := t_lower; o_debug := fun s => s; o_plain := fun c => c <? 128; o_xid_start := fun _ => false; o_xid_continue := fun _ => false;
     o_json := false; o_actix := true; o_axum := false; o_rocket := true; o_warp := false |}.
Definition files1 : list (str * str) := [(lit "/p/askama.toml", lit "x"); (lit "/p/templates/a.html", lit "Hi {{ x }}{% include ""b.html"" %}"); (lit "/p/templates/b.html", lit "{{ y }}")].
Definition files2 : list (str * str) := [(lit "/p/askama.toml", lit "x"); (lit "/p/templates/a.html", lit "Hi ${x  }$<#include   ""b.html"" #>"); (lit "/p/templates/b.html", lit "${ y}$")].
Definition the_item (more : list meta) : item :=
  {| d_ident := lit "Page"; d_attrs := [Some (MNameValue (Some (lit "path")) (VStr (lit "a.html")) :: more)]; d_impl := lit "impl"; d_impl_rocket := lit "impl < 'askama1 >"; d_where := [] |}.
Definition item1 : item := the_item [].
Definition item2 : item := the_item [MNameValue (Some (lit "syntax")) (VStr (lit "other"))].
Lemma readable1 : readable default_syntax.
Proof. exact Prop_Write.C57_syntax. Qed.
Lemma readable2 : readable other_syntax.
Proof.
  assert (H : forall c, In c [35; 125] -> ~ ident_start c /\ ~ 48 <= c <= 57) by (intros c [<-|[<-|[]]]; unfold ident_start; lia).
  split; [|split; [split; [|discriminate]|]].
  - apply (try_into_correct {| r_name := []; r_block_start := Some (lit "<#"); r_block_end := Some (lit "#>"); r_expr_start := Some (lit "${"); r_expr_end := Some (lit "}$");
                              r_comment_start := Some (lit "<!"); r_comment_end := Some (lit "!>") |} other_syntax). vm_compute. reflexivity.
  - split; [apply H; cbn; auto|]. split; [apply H; cbn; auto|]. left. cbn. intuition discriminate.
  - split; [apply H; cbn; auto|]. split; [apply H; cbn; auto|]. left. cbn. intuition discriminate.
Qed.
Fixpoint none_opens (sy : syntax) (t rest : str) : bool :=
  match t with
  | [] => true
  | c :: t' => negb (starts_with (block_start sy) (t ++ rest) || starts_with (comment_start sy) (t ++ rest) || starts_with (expr_start sy) (t ++ rest)) && none_opens sy t' rest
  end.
Lemma none_opens_ok sy t rest : none_opens sy t rest = true -> forall u v, t = u ++ v -> v <> [] -> ~ opening sy (v ++ rest).
Proof.
  intros H u. revert t H. induction u as [|c u IH]; intros t H v -> Hv.
  - destruct v as [|c v]; [congruence|]. cbn [app none_opens] in H. apply andb_true_iff in H as [H _]. apply negb_true_iff in H. apply orb_false_iff in H as [H H3]. apply orb_false_iff in H as [H1 H2].
    intros (d & x & Hd & E). destruct Hd as [<-|[<-|[<-|[]]]]; match goal with K : starts_with ?p _ = false, E : _ = ?p ++ _ |- _ => assert (starts_with p ((c :: v) ++ rest) = true) by (apply starts_tag; exists x; exact E); cbn [app] in *; congruence end.
  - cbn [app none_opens] in H. apply andb_true_iff in H as [_ H]. eapply IH; eauto.
Qed.
Ltac bl := match goal with |- blanks _ => repeat constructor; cbn; tauto end.
Ltac var := split; [cbn [canon]; split; [lia|]; split; [apply Prop_Write.is_ident; reflexivity|]; split; [reflexivity|intros [K|K]; discriminate K]|cbn; lia].
Definition nodes_a : list node := [NLit {| lws := []; lval := lit "Hi"; rws := lit " " |}; NExpr no_ws (Var (lit "x")); NInclude no_ws (lit "b.html")].
Lemma written_x sy : none_opens sy (lit "x") [] = true -> writes_template t_lower sy [NLit {| lws := []; lval := lit "x"; rws := [] |}] (lit "x").
Proof.
  intros H. refine (wa_cons _ _ 0 false _ (lit "x") [] [] [] _ _); [|constructor]. apply w_lit; [apply Prop_Write.is_lit_ok; reflexivity|reflexivity|discriminate|apply none_opens_ok; exact H|left; reflexivity].
Qed.
Lemma written_y sy b b' : blanks b -> blanks b' -> writes_template t_lower sy [NExpr no_ws (Var (lit "y"))] (expr_start sy ++ b ++ lit "y" ++ b' ++ expr_end sy).
Proof.
  intros Hb Hb'. unfold writes_template. replace (expr_start sy ++ b ++ lit "y" ++ b' ++ expr_end sy) with (expr_tag (expr_start sy) (expr_end sy) None b (text (Var (lit "y"))) b' None ++ []).
  - apply wa_cons; [|constructor]. apply w_expr; [var|exact Hb|exact Hb'|discriminate].
  - rewrite app_nil_r. reflexivity.
Qed.
Lemma written_a sy b b' c c' c'' : blanks b -> blanks b' -> blanks c -> blanks c' -> blanks c'' ->
  none_opens sy (lit "Hi ") (expr_tag (expr_start sy) (expr_end sy) None b (lit "x") b' None ++ btag sy None c (lit "include" ++ c' ++ lit """b.html""") c'' None) = true ->
  writes_template t_lower sy nodes_a (lit "Hi " ++ expr_tag (expr_start sy) (expr_end sy) None b (lit "x") b' None ++ btag sy None c (lit "include" ++ c' ++ lit """b.html""") c'' None).
Proof.
  intros H1 H2 H3 H4 H5 H. unfold writes_template, nodes_a. apply wa_cons.
  - rewrite app_nil_r. apply w_lit; [apply Prop_Write.is_lit_ok; reflexivity|reflexivity|discriminate|apply none_opens_ok; exact H|]. right. eexists; eexists. split; [right; right; left; reflexivity|]. unfold expr_tag. rewrite <- !app_assoc. reflexivity.
  - apply wa_cons; [change (lit "x") with (text (Var (lit "x"))); apply w_expr; [var|assumption|assumption|discriminate]|].
    rewrite <- (app_nil_r (btag _ _ _ _ _ _)). apply wa_cons; [|constructor]. apply w_simple; [lia|assumption|assumption|].
    change (lit """b.html""") with (lit """" ++ lit "b.html" ++ lit """"). apply st_include; [assumption|]. repeat (apply qt_plain; [discriminate|discriminate|]). constructor.
Qed.
Lemma files_respelled p : In p [lit "/p/askama.toml"; lit "/p/templates/a.html"; lit "/p/templates/b.html"] -> match get p files1, get p files2 with
  | Some s, Some s' => respelled t_lower default_syntax other_syntax (get_template_source s) (get_template_source s') | None, None => True | _, _ => False end.
Proof.
  intros [<-|[<-|[<-|[]]]].
  - eexists. split; apply written_x; reflexivity.
  - exists nodes_a. split; [apply (written_a default_syntax (lit " ") (lit " ") (lit " ") (lit " ") (lit " "))|apply (written_a other_syntax [] (lit "  ") [] (lit "   ") (lit " "))]; try bl; reflexivity.
  - eexists. split; [apply (written_y default_syntax (lit " ") (lit " "))|apply (written_y other_syntax (lit " ") [])]; bl.
Qed.
Lemma found_exists w cfg name from p : find_from w cfg name from = Ok p -> o_exists w p = true.
Proof.
  unfold find_from, find_template. destruct (o_exists w (o_with_file_name w from name)) eqn:E; [intros [= <-]; exact E|]. destruct (find_dir _ _ _ _) as [q|] eqn:EF; [|discriminate]. intros [= <-].
  induction (dirs cfg) as [|x ds IH]; [discriminate EF|]. cbn [find_dir] in EF. destruct (o_exists w (o_join w x name)) eqn:EX; [injection EF as <-; exact EX|auto].
Qed.
Definition a1 : template_args := Eval vm_compute in match template_args_new (d_attrs item1) with Ok a => a | _ => fallback end.
Definition a2 : template_args := Eval vm_compute in match template_args_new (d_attrs item2) with Ok a => a | _ => fallback end.
Definition the_config : config :=
  {| dirs := [lit "/p/templates"]; syntaxes := [(lit "default", default_syntax); (lit "other", other_syntax)]; default_syntax_name := lit "default"; escapers := DEFAULT_ESCAPERS; Config.whitespace := Preserve |}.
Definition the_input (sy : syntax) : template_input :=
  {| i_path := lit "/p/templates/a.html"; i_syntax := sy; i_escaper := lit "::askama::Html"; i_mime_ext := lit "html"; i_block := None; i_source := SPath (lit "a.html") |}.
Example C70_example : (exists s, build_source (shelf files1) 9 9 item1 = GOk s) /\ other_files (shelf files1) (shelf files2) /\
  prepared (shelf files1) item1 a1 the_config (the_input default_syntax) (lit "Hi {{ x }}{% include ""b.html"" %}") /\
  prepared (shelf files2) item2 a2 the_config (the_input other_syntax) (lit "Hi ${x  }$<#include   ""b.html"" #>") /\
  alike item1 item2 a1 a2 the_config the_config (the_input default_syntax) (the_input other_syntax) /\ readable default_syntax /\ readable other_syntax /\
  respelled t_lower default_syntax other_syntax (lit "Hi {{ x }}{% include ""b.html"" %}") (lit "Hi ${x  }$<#include   ""b.html"" #>") /\
  (forall name from p, find_from (shelf files1) the_config name from = Ok p -> match o_read (shelf files1) p, o_read (shelf files2) p with
    | Some s, Some s' => respelled t_lower default_syntax other_syntax (get_template_source s) (get_template_source s') | None, None => True | _, _ => False end).
Proof.
  split; [eexists; vm_compute; reflexivity|]. split; [repeat split|]. split; [exists (lit "x"); repeat split; vm_compute; reflexivity|]. split; [exists (lit "x"); repeat split; vm_compute; reflexivity|].
  split; [repeat split|]. split; [exact readable1|]. split; [exact readable2|]. split; [apply (files_respelled (lit "/p/templates/a.html")); cbn [In]; auto|].
  intros name from p E. apply found_exists in E. apply files_respelled. apply mem_str_In. exact E.
Qed.
