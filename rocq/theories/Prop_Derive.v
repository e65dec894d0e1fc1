(** * The whole derive macro: C61, C62, and C41 and C60 together.  Model in Derive.v. *)
From Coq Require Import Lia ZArith ZifyBool ZifyNat ZifyN.
From Verif Require Import Base Ws Config ConfigFacts Ast ParseNode ParseSpec ParseTests NodeFacts GenExpr Heritage Gen HeritageSpec HeritageFacts UsedFacts TreeSpec PanicSpec PanicFacts PanicGen PanicTop RustText RustSpec RustFacts RustShow GenText Derive TplFacts Prop_Parse Prop_Panic Prop_Flat Prop_Rust Sem RefSem TestWorld.
Local Open Scope N_scope.
Set Default Proof Using "Type".

Definition NL : str := [10].
(** ** What the compiler should get when the derivation fails *)
(** The text begins with an implementation of Template for the struct whose rendering writes nothing and succeeds. *)
Definition renders_nothing (d : item) (s : str) : Prop :=
  exists rest, s = d_impl d ++ lit " ::askama::Template for " ++ d_ident d ++ d_where d ++ lit " {" ++ NL ++
    lit "fn render_into(&self, writer: &mut (impl ::std::fmt::Write + ?Sized)) -> ::askama::Result<()> {" ++ NL ++
    lit "::askama::Result::Ok(())" ++ NL ++ lit "}" ++ NL ++ rest.
(** Somewhere in the text the trait is implemented for the struct. *)
Definition implements (impl : str) (d : item) (trait s : str) : Prop :=
  exists a b, s = a ++ impl ++ lit " " ++ trait ++ lit " for " ++ d_ident d ++ d_where d ++ lit " {" ++ NL ++ b.
(** A struct as the compiler hands it over: it has a name, and its parts can be read.  [o_name_of] (std): a name with an extension
    is a file name. *)
Definition proper (w : outside) (d : item) : Prop :=
  o_root w <> None /\ d_ident d <> [] /\ o_name_of w (d_ident d ++ lit ".txt") = Some (d_ident d ++ lit ".txt") /\
  closed (o_xid_start w) (o_xid_continue w) (d_impl d) = true /\ closed (o_xid_start w) (o_xid_continue w) (d_impl_rocket d) = true /\
  closed (o_xid_start w) (o_xid_continue w) (d_ident d ++ d_where d) = true.

Lemma closed_lexes xs xc s : closed xs xc s = true -> lexes xs xc s = true.
Proof. unfold closed, lexes. destruct (RustText.run xs xc _ s) as [[m [|? ?]]|]; try discriminate. destruct m; intros H; try exact H; reflexivity. Qed.

Definition skeleton_frame (w : outside) (d : item) : frame :=
  {| fr_impl := d_impl d; fr_impl_rocket := d_impl_rocket d; fr_name := d_ident d; fr_where := d_where d; fr_files := [];
     fr_extension := Some (lit "txt"); fr_mime := extension_to_mime_type w (lit "txt"); fr_actix := o_actix w; fr_axum := o_axum w; fr_rocket := o_rocket w; fr_warp := o_warp w |}.
Lemma skeleton_is w d : proper w d -> build_skeleton w d = GOk (source_text (o_plain w) (skeleton_frame w d) [] 0).
Proof.
  intros (R & NE & NM & _). unfold build_skeleton, config_of. destruct (o_root w) as [root|]; [clear R|destruct (R eq_refl)]. cbn [of_res gbind rbind].
  change (config_new (o_join w root) empty_config None) with
    (Ok {| dirs := [o_join w root (lit "templates")]; syntaxes := [(DEFAULT_SYNTAX_NAME, default_syntax)]; default_syntax_name := DEFAULT_SYNTAX_NAME; escapers := DEFAULT_ESCAPERS; Config.whitespace := Preserve |}).
  cbn [of_res gbind]. unfold input_of, template_input_new. cbn [fallback a_source a_ext a_syntax a_escaping a_block rbind default_syntax_name syntaxes escapers].
  change (assoc DEFAULT_SYNTAX_NAME [(DEFAULT_SYNTAX_NAME, default_syntax)]) with (Some default_syntax). cbv iota. cbn [rbind].
  change (d_ident d ++ lit "." ++ lit "txt") with (d_ident d ++ lit ".txt"). rewrite NM.
  change (d_ident d ++ lit ".txt") with (d_ident d ++ 46 :: lit "txt"). destruct (path_ext (d_ident d) (lit "txt")) as [-> _]; [repeat constructor; discriminate|discriminate|exact NE|].
  cbn [unwrap_or]. change (find_escaper (lit "txt") DEFAULT_ESCAPERS) with (Some (lit "::askama::Text")). cbv iota. cbn [of_res gbind].
  unfold impl_template. cbn [c_nodes no_context handle]. reflexivity.
Qed.
Lemma skeleton_closed w d : proper w d -> lexes (o_xid_start w) (o_xid_continue w) (source_text (o_plain w) (skeleton_frame w d) [] 0) = true.
Proof.
  intros (_ & _ & _ & H1 & H2 & H3). apply closed_lexes, piece_closed. intros st. apply ends_is, source_ends; [repeat split; assumption|]. constructor.
Qed.

(** ** C61 *)
(** Whatever error is reported, it comes with implementations of all the traits, of which Template renders nothing; they can be
    read, so there is neither a panic nor a second error about a missing implementation. *)
Theorem C61_fallback w d files depth m : proper w d -> build_source w files depth d = GErr m ->
  exists s, derive_template w files depth d = GOk (Failed m (Some s)) /\ renders_nothing d s /\ implements (d_impl d) d (lit "::std::fmt::Display") s /\
    (o_actix w = true -> implements (d_impl d) d (lit "::askama_actix::actix_web::Responder") s) /\
    (o_axum w = true -> implements (d_impl d) d (lit "::askama_axum::axum_core::response::IntoResponse") s) /\
    (o_rocket w = true -> implements (d_impl_rocket d) d (lit "::askama_rocket::rocket::response::Responder<'askama1, 'static>") s) /\
    (o_warp w = true -> implements (d_impl d) d (lit "::askama_warp::warp::reply::Reply") s).
Proof.
  intros P E. pose proof (skeleton_is w d P) as S. pose proof (skeleton_closed w d P) as C. exists (source_text (o_plain w) (skeleton_frame w d) [] 0).
  split; [unfold derive_template; rewrite E, S; unfold unwrap_tokens; rewrite C; reflexivity|].
  split; [unfold renders_nothing, source_text, impl_template_text, header_text, header_text_for, NL; cbn [fr_impl fr_name fr_where fr_files skeleton_frame code_text map concat app];
          repeat rewrite <- app_assoc; eexists; reflexivity|].
  unfold implements, source_text.
  split; [exists (impl_template_text (o_plain w) (skeleton_frame w d) [] 0); unfold impl_display_text, header_text, header_text_for; repeat rewrite <- app_assoc; eexists; reflexivity|].
  assert (Q : forall impl tr t x y, t = impl ++ lit " " ++ tr ++ lit " for " ++ d_ident d ++ d_where d ++ lit " {" ++ [10] ++ y ->
             exists a b, x ++ t = a ++ impl ++ lit " " ++ tr ++ lit " for " ++ d_ident d ++ d_where d ++ lit " {" ++ NL ++ b).
  { intros impl tr t x y ->. exists x, y. reflexivity. }
  cbn [fr_actix fr_axum fr_rocket fr_warp skeleton_frame].
  split; [|split; [|split]]; intros ->; cbn [with_feature].
  - rewrite (app_assoc (impl_template_text _ _ _ _)). eapply Q. unfold impl_actix_text, header_text, header_text_for. cbn [fr_impl fr_name fr_where skeleton_frame]. repeat rewrite <- app_assoc. reflexivity.
  - rewrite (app_assoc (impl_template_text _ _ _ _)), (app_assoc _ (with_feature _ _)). eapply Q. unfold impl_axum_text, header_text, header_text_for. cbn [fr_impl fr_name fr_where skeleton_frame]. repeat rewrite <- app_assoc. reflexivity.
  - rewrite (app_assoc (impl_template_text _ _ _ _)), (app_assoc _ (with_feature _ (impl_actix_text _))), (app_assoc _ (with_feature _ (impl_axum_text _))). eapply Q.
    unfold impl_rocket_text, header_text_for. cbn [fr_impl_rocket fr_name fr_where skeleton_frame]. repeat rewrite <- app_assoc. reflexivity.
  - rewrite (app_assoc (impl_template_text _ _ _ _)), (app_assoc _ (with_feature _ (impl_actix_text _))), (app_assoc _ (with_feature _ (impl_axum_text _))), (app_assoc _ (with_feature _ (impl_rocket_text _))).
    eapply Q. unfold impl_warp_text, header_text, header_text_for. cbn [fr_impl fr_name fr_where skeleton_frame]. repeat rewrite <- app_assoc. reflexivity.
Qed.
Print Assumptions C61_fallback.
(** The code beside the error does not depend on what is wrong: not on the attributes, the files or the configuration. *)
Theorem C61_same_fallback w w' d attrs : proper w d -> o_root w' <> None -> o_name_of w' = o_name_of w -> o_mime w' = o_mime w -> o_plain w' = o_plain w ->
  (o_actix w', o_axum w', o_rocket w', o_warp w') = (o_actix w, o_axum w, o_rocket w, o_warp w) ->
  o_xid_start w' = o_xid_start w -> o_xid_continue w' = o_xid_continue w ->
  build_skeleton w' {| d_ident := d_ident d; d_attrs := attrs; d_impl := d_impl d; d_impl_rocket := d_impl_rocket d; d_where := d_where d |} = build_skeleton w d.
Proof.
  intros P R N1 N2 N3 F X1 X2. rewrite (skeleton_is w d P). injection F as F1 F2 F3 F4.
  rewrite skeleton_is; [unfold skeleton_frame, extension_to_mime_type; cbn [d_ident d_impl d_impl_rocket d_where]; rewrite N2, N3, F1, F2, F3, F4; reflexivity|].
  destruct P as (_ & P2 & P3 & P4 & P5 & P6). unfold proper. cbn [d_ident d_impl d_impl_rocket d_where]. rewrite N1, X1, X2. repeat (split; [assumption|]). assumption.
Qed.
Print Assumptions C61_same_fallback.

(** ** The steps before the generator *)
(** The attributes, the configuration and the template itself, as far as there are any *)
Definition set_up (w : outside) (d : item) (a : template_args) (cfg : config) (i : template_input) (src : str) : Prop :=
  exists toml, template_args_new (d_attrs d) = Ok a /\ read_config_file w (a_config a) = Ok toml /\ config_of w toml (a_whitespace a) = Ok cfg /\
    input_of w d cfg a = Ok i /\ match i_source i with SSource s => src = s | SPath _ => load w (i_path i) = Ok src end.
(** The files the template is made from: itself and those it refers to, directly or not *)
Definition uses (w : outside) (cfg : config) (i : template_input) (src p : str) : Prop :=
  reachable (find_from w cfg) (load w) (parse_text w (i_syntax i)) (i_path i) src p.
Definition holds (w : outside) (i : template_input) (src p : str) (ns : list node) : Prop :=
  contents (load w) (parse_text w (i_syntax i)) (i_path i) src p ns.
Lemma find_not_panic w cfg a b : find_from w cfg a b <> Panic.
Proof.
  unfold find_from, find_template. match goal with |- context [match ?r with Some p => Ok p | None => _ end] => destruct r; [discriminate|] end.
  destruct (find_dir _ _ _ _); discriminate.
Qed.
Lemma load_not_panic w p : load w p <> Panic.
Proof. unfold load. destruct (o_read w p); discriminate. Qed.
Lemma config_of_new w toml ws cfg : config_of w toml ws = Ok cfg -> exists rj raw, config_new rj raw ws = Ok cfg /\ (raw = empty_config \/ o_toml w toml = Some raw).
Proof.
  unfold config_of. destruct (o_root w) as [root|]; [|discriminate]. intros H. destruct toml as [|c t].
  - cbn [rbind] in H. eexists _, _. eauto.
  - apply rbind_Ok in H as (raw & E & H). destruct (o_toml w (c :: t)) as [r|]; [|discriminate]. injection E as <-. eauto.
Qed.
Lemma input_syntax w d cfg a i : (forall n s, assoc n (syntaxes cfg) = Some s -> syntax_valid s) -> input_of w d cfg a = Ok i -> syntax_valid (i_syntax i).
Proof.
  intros V. unfold input_of, template_input_new. destruct (a_source a) as [src|]; [|discriminate]. intros H. apply rbind_Ok in H as (path & _ & H). apply rbind_Ok in H as (sy & E & H).
  destruct (find_escaper _ _); [|discriminate]. injection H as <-. cbn [i_syntax]. destruct (a_syntax a) as [n|].
  - destruct (assoc n _) eqn:A; [|discriminate]. injection E as <-. exact (V _ _ A).
  - destruct (assoc _ _) eqn:A; [|discriminate]. injection E as <-. exact (V _ _ A).
Qed.
Lemma input_escaper_in w d cfg a i : input_of w d cfg a = Ok i -> exists l, In (l, i_escaper i) (escapers cfg).
Proof.
  intros H. apply input_escaper in H. destruct H as (pre & exts & post & E & _). exists exts. rewrite E. apply in_or_app. right. left. reflexivity.
Qed.
Lemma canonical_in w inline own : forall ps r, canonical_paths w inline own ps = Ok r ->
  forall c, In c r <-> exists p, In p ps /\ (inline = true -> p <> own) /\ o_canonical w p = Some c.
Proof.
  induction ps as [|p ps IH]; cbn [canonical_paths]; intros r H c.
  - injection H as <-. split; [intros []|intros (p & [] & _)].
  - destruct (inline && str_eqb p own) eqn:B.
    + apply andb_prop in B as [-> B]. apply str_eqb_eq in B as ->. rewrite (IH r H c). split; intros (q & Hq & A & Q); exists q; [split; [right; exact Hq|auto]|].
      destruct Hq as [<-|Hq]; [destruct (A eq_refl eq_refl)|auto].
    + destruct (o_canonical w p) as [c0|] eqn:Q; [|discriminate]. apply rbind_Ok in H as (r' & H & E). injection E as <-. split.
      * intros [<-|Hc]; [exists p; split; [left; reflexivity|split; [|exact Q]]|apply (IH r' H) in Hc as (q & Hq & X); exists q; split; [right; exact Hq|exact X]].
        intros -> ->. rewrite str_eqb_refl in B. discriminate B.
      * intros (q & [<-|Hq] & A & X); [left; congruence|right; apply (IH r' H); eauto].
Qed.
Lemma canonical_safe w inline own ps : (forall p, In p ps -> (inline = true -> p <> own) -> o_canonical w p <> None) -> canonical_paths w inline own ps <> Panic.
Proof.
  induction ps as [|p ps IH]; cbn [canonical_paths]; intros H; [discriminate|].
  assert (IH' : canonical_paths w inline own ps <> Panic) by (apply IH; intros q Hq; apply H; right; exact Hq).
  destruct (inline && str_eqb p own) eqn:B; [exact IH'|]. destruct (o_canonical w p) eqn:Q.
  - destruct (canonical_paths w inline own ps); [discriminate|discriminate|destruct (IH' eq_refl)].
  - exfalso. apply (H p (or_introl eq_refl)); [|exact Q]. intros -> ->. rewrite str_eqb_refl in B. discriminate B.
Qed.
(** What a derivation that succeeds has gone through *)
Lemma build_source_inv w files depth d s : build_source w files depth d = GOk s ->
  exists a cfg i src ts ps code size, set_up w d a cfg i src /\
    find_used_templates (find_from w cfg) (load w) (parse_text w (i_syntax i)) files (i_path i) src = GOk ts /\
    canonical_paths w (is_inline (i_source i)) (i_path i) (map fst ts) = Ok ps /\
    build_template (ginput_of w cfg i) (find_from w cfg) depth ts = GOk (code, size) /\ s = source_text (o_plain w) (frame_of w d a i ps) code size.
Proof.
  unfold build_source. intros H. apply gbind_inv in H as (a & Ha & H). apply of_res_inv in Ha. apply gbind_inv in H as (toml & Ht & H). apply of_res_inv in Ht.
  apply gbind_inv in H as (cfg & Hc & H). apply of_res_inv in Hc. apply gbind_inv in H as (i & Hi & H). apply of_res_inv in Hi.
  apply gbind_inv in H as (src & Hs & H). apply of_res_inv in Hs. apply gbind_inv in H as (ts & Hts & H). apply gbind_inv in H as (ps & Hps & H). apply of_res_inv in Hps.
  apply gbind_inv in H as ([code size] & Hb & H). injection H as <-. exists a, cfg, i, src, ts, ps, code, size. split; [|auto].
  exists toml. repeat (split; [assumption|]). destruct (i_source i); [exact Hs|congruence].
Qed.
Lemma set_up_valid w d a cfg i src : set_up w d a cfg i src -> syntax_valid (i_syntax i).
Proof.
  intros (toml & _ & _ & Hc & Hi & _). apply config_of_new in Hc as (rj & raw & Hc & _). eapply input_syntax; [|exact Hi]. exact (config_syntaxes_valid _ _ _ _ Hc).
Qed.

(** ** C41 and C60 for the whole macro *)
(** No part of a key in the attribute has more than one component (see C48_path_key_is_error_refuted), and a template is given
    (see C48_missing_source_is_error_refuted). *)
Definition simple_keys (d : item) : Prop := forall items v, In (Some items) (d_attrs d) -> ~ In (MNameValue None v) items.
Definition source_given (d : item) : Prop := forall a, template_args_new (d_attrs d) = Ok a -> a_source a <> None.
Lemma set_arg_safe item a : (forall v, item <> MNameValue None v) -> set_arg item a <> Panic.
Proof.
  intros H. destruct item as [[key|] v|]; [|destruct (H v eq_refl)|discriminate].
  cbn [set_arg]. unfold parse_print.
  destruct v; repeat (cbn [str_value rbind]; match goal with
    | |- Ok _ <> Panic => discriminate
    | |- Err _ <> Panic => discriminate
    | |- (if ?c then _ else _) <> Panic => destruct c
    | |- rbind (if ?c then _ else _) _ <> Panic => destruct c
    | |- match a_source a with _ => _ end <> Panic => destruct (a_source a)
    end).
Qed.
Lemma set_args_safe : forall items a, (forall v, ~ In (MNameValue None v) items) -> set_args items a <> Panic.
Proof.
  induction items as [|x items IH]; intros a H; [discriminate|]. cbn [set_args]. pose proof (set_arg_safe x a) as S. destruct (set_arg x a) as [a'| |]; cbn [rbind]; [|discriminate|].
  - apply IH. intros v Hv. apply (H v). right. exact Hv.
  - intros _. apply S; [|reflexivity]. intros v ->. apply (H v). left. reflexivity.
Qed.
Lemma only_attr_in : forall attrs found, match only_attr attrs found with Ok (Some items) => found = Some items \/ In (Some items) attrs | Panic => False | _ => True end.
Proof.
  induction attrs as [|[args|] attrs IH]; intros found; cbn [only_attr]; [destruct found; auto| |exact I].
  destruct found as [f|]; [exact I|]. specialize (IH (Some args)). destruct (only_attr attrs (Some args)) as [[items|]| |]; auto.
Qed.
Lemma args_safe d : simple_keys d -> template_args_new (d_attrs d) <> Panic.
Proof.
  intros H. unfold template_args_new. pose proof (only_attr_in (d_attrs d) None) as O. destruct (only_attr (d_attrs d) None) as [[items|]| |]; cbn [rbind]; try discriminate; [|destruct O].
  apply set_args_safe. intros v. apply H. destruct O as [[=]|O]. exact O.
Qed.
Lemma config_new_safe rj raw tw : config_new rj raw tw <> Panic.
Proof.
  unfold config_new. assert (A : forall l m, add_syntaxes l m <> Panic).
  { induction l as [|r l IH]; intros m; cbn [add_syntaxes]; [discriminate|]. assert (T : try_into r <> Panic).
    { unfold try_into. cbv zeta. match goal with |- context [check_delims ?l] => assert (C : check_delims l <> Panic) end.
      { match goal with |- check_delims ?l <> _ => induction l as [|x l' IHl] end; cbn [check_delims]; [discriminate|]. unfold check_delim. repeat (match goal with |- context [if ?c then _ else _] => destruct c end; [discriminate|]). exact IHl. }
      destruct (check_delims _); cbn [rbind]; [|discriminate|destruct (C eq_refl)].
      match goal with |- context [check_pairs ?l] => assert (C2 : check_pairs l <> Panic) end.
      { match goal with |- check_pairs ?l <> _ => generalize l end. induction l0 as [|[x y] l' IHl]; cbn [check_pairs]; [discriminate|]. repeat (match goal with |- context [if ?c then _ else _] => destruct c end; [discriminate|]). exact IHl. }
      destruct (check_pairs _); cbn [rbind]; [discriminate|discriminate|destruct (C2 eq_refl)]. }
    destruct (try_into r); cbn [rbind]; [|discriminate|destruct (T eq_refl)]. destruct (assoc _ m); [discriminate|apply IH]. }
  cbv zeta. match goal with |- context [rbind ?r _] => assert (W : r <> Panic); [|destruct r; cbn [rbind]; [|discriminate|destruct (W eq_refl)]] end.
  { destruct tw; [|discriminate]. unfold parse_whitespace. repeat (match goal with |- context [if ?c then _ else _] => destruct c end; [discriminate|]). discriminate. }
  match goal with |- context [add_syntaxes ?l ?m] => specialize (A l m); destruct (add_syntaxes l m); cbn [rbind]; [|discriminate|destruct (A eq_refl)] end.
  destruct (assoc _ _); discriminate.
Qed.

(** The whole macro: for a proper struct whose attributes have simple keys and give a template, whose files can be found under
    a canonical path, and which keeps to the conditions of C41_no_panic_partial and C60_lexes_partial (both in view below), the
    macro ends in code or in an error, not in a panic.  Missing is what the refutations of C41, C48 and C60 exclude. *)
Theorem C41_macro_partial w d D files depth : proper w d -> simple_keys d -> source_given d ->
  (forall p s, o_read w p = Some s -> o_canonical w p <> None) ->
  (forall toml raw e, o_toml w toml = Some raw -> In e (unwrap_or (raw_escapers raw) []) -> closed (o_xid_start w) (o_xid_continue w) (re_path e) = true) ->
  N.of_nat depth * (D + 1) <= 59 ->
  (forall a cfg i src, set_up w d a cfg i src ->
     (forall s, load w (i_path i) = Ok s -> s = src) /\
     forall p ns, uses w cfg i src p -> holds w i src p ns ->
       nestl ns <= D /\ blocks_placed ns /\ (forall x, includes ns x -> find_from w cfg x p = find_from w cfg x (i_path i)) /\
       readable_template (o_xid_start w) (o_xid_continue w) ns) ->
  derive_template w files depth d <> GPanic.
Proof.
  intros P SK SG CN ES L HF.
  assert (R : o_root w <> None) by apply P.
  assert (G : gsafe (build_source w files depth d) (fun s => lexes (o_xid_start w) (o_xid_continue w) s = true)).
  { unfold build_source.
    pose proof (args_safe d SK) as A1. destruct (template_args_new (d_attrs d)) as [a| |] eqn:Ea; [|exact I|destruct (A1 eq_refl)]. cbn [of_res gbind].
    assert (A2 : read_config_file w (a_config a) <> Panic).
    { unfold read_config_file. destruct (o_root w); [|destruct (R eq_refl)]. destruct (o_exists w _); [destruct (o_read w _); discriminate|destruct (a_config a); discriminate]. }
    destruct (read_config_file w (a_config a)) as [toml| |] eqn:Et; [|exact I|destruct (A2 eq_refl)]. cbn [of_res gbind].
    assert (A3 : config_of w toml (a_whitespace a) <> Panic).
    { unfold config_of. destruct (o_root w) as [root|]; [|destruct (R eq_refl)]. destruct toml as [|c t]; [apply config_new_safe|]. destruct (o_toml w (c :: t)); [apply config_new_safe|discriminate]. }
    destruct (config_of w toml (a_whitespace a)) as [cfg| |] eqn:Ec; [|exact I|destruct (A3 eq_refl)]. cbn [of_res gbind].
    destruct (config_of_new _ _ _ _ Ec) as (rj & raw & Ec' & Raw).
    assert (A4 : input_of w d cfg a <> Panic).
    { unfold input_of, template_input_new. pose proof (SG a Ea) as S. destruct (a_source a) as [source|]; [clear S|destruct (S eq_refl)].
      assert (F : match source, a_ext a with SPath p, _ => find_template (o_join w) (o_with_file_name w) (o_exists w) (dirs cfg) p None | SSource _, Some ext => Ok (d_ident d ++ lit "." ++ ext)
                  | SSource _, None => Err (lit "must include 'ext' attribute when using 'source' attribute") end <> Panic).
      { destruct source; [unfold find_template; destruct (find_dir _ _ _ _); discriminate|destruct (a_ext a); discriminate]. }
      match goal with |- context [rbind ?r _] => destruct r as [path| |]; cbn [rbind]; [clear F|discriminate|destruct (F eq_refl)] end.
      pose proof (config_default_exists _ _ _ _ Ec') as Def.
      destruct (a_syntax a) as [n|]; [destruct (assoc n _)|destruct (assoc (default_syntax_name cfg) _); [|destruct (Def eq_refl)]]; cbn [rbind]; try discriminate; destruct (find_escaper _ _); discriminate. }
    destruct (input_of w d cfg a) as [i| |] eqn:Ei; [|exact I|destruct (A4 eq_refl)]. cbn [of_res gbind].
    assert (A5 : match i_source i with SSource s => Ok s | SPath _ => load w (i_path i) end <> Panic) by (destruct (i_source i); [apply load_not_panic|discriminate]).
    destruct (match i_source i with SSource s => Ok s | SPath _ => load w (i_path i) end) as [src| |] eqn:Es; [|exact I|destruct (A5 eq_refl)]. cbn [of_res gbind].
    assert (SU : set_up w d a cfg i src).
    { exists toml. repeat (split; [assumption|]). destruct (i_source i); [exact Es|congruence]. }
    destruct (HF a cfg i src SU) as [Hsrc HFiles]. pose proof (set_up_valid _ _ _ _ _ _ SU) as Hsy.
    pose proof (C41_search (o_lowercase w) (o_debug w) (i_syntax i) (find_from w cfg) (load w) files (i_path i) src Hsy (find_not_panic w cfg) (load_not_panic w)) as S1.
    change (parse_with (o_lowercase w) (o_debug w) (i_syntax i)) with (parse_text w (i_syntax i)) in S1.
    destruct (C41_no_panic_partial (o_lowercase w) (o_debug w) (i_syntax i) (ginput_of w cfg i) (find_from w cfg) (load w) src D files depth Hsy (find_not_panic w cfg) (load_not_panic w) Hsrc) as [S2 _]; [|exact L|].
    { intros p ns U C. destruct (HFiles p ns U C) as (X1 & X2 & X3 & _). auto. }
    unfold derive in S2. change (parse_with (o_lowercase w) (o_debug w) (i_syntax i)) with (parse_text w (i_syntax i)) in S2. change (f_path (ginput_of w cfg i)) with (i_path i) in S2.
    destruct (find_used_templates _ _ _ _ _ _) as [ts| | |] eqn:Ets; try exact I; [|destruct (S1 eq_refl)]. cbn [gbind] in *.
    destruct (find_used_spec _ _ _ _ _ Hsrc _ _ Ets) as (ND & Con & Rea).
    assert (InU : forall p ns, In (p, ns) ts -> uses w cfg i src p /\ holds w i src p ns).
    { intros p ns Hin. apply (SimScope.in_get p ns _ ND) in Hin. split; [apply Rea; congruence|apply Con, Hin]. }
    assert (A6 : canonical_paths w (is_inline (i_source i)) (i_path i) (map fst ts) <> Panic).
    { apply canonical_safe. intros p Hp NOwn. apply in_map_iff in Hp as ([p' ns] & <- & Hin). cbn [fst] in *. destruct (InU _ _ Hin) as [_ (s & [Ld|[-> ->]] & _)].
      - unfold load in Ld. destruct (o_read w p') eqn:Rd; [|discriminate]. exact (CN _ _ Rd).
      - destruct (i_source i) eqn:Isrc; [|destruct (NOwn eq_refl eq_refl)]. unfold load in Es. destruct (o_read w (i_path i)) eqn:Rd; [|discriminate]. exact (CN _ _ Rd). }
    destruct (canonical_paths _ _ _ _) as [ps| |] eqn:Eps; [|exact I|destruct (A6 eq_refl)]. cbn [of_res gbind].
    destruct (build_template _ _ _ ts) as [[code size]| | |] eqn:Eb; try exact I; [|destruct (S2 eq_refl)]. cbn [gbind gsafe].
    apply closed_lexes. eapply C60_lexes_partial; [| | | |exact Eb].
    - intros p ns Hin. destruct (InU _ _ Hin) as [_ (s & _ & Ps)]. exists (o_lowercase w), (o_debug w), (i_syntax i), s. split; [exact (valid_nonempty _ Hsy)|].
      unfold parse_text in Ps. destruct (from_str _ _ _ s) as [[?|?]|]; inversion Ps. reflexivity.
    - intros p ns Hin. destruct (InU _ _ Hin) as [U C]. apply (HFiles p ns U C).
    - assert (EA : forall l esc, In (l, esc) (escapers cfg) -> closed (o_xid_start w) (o_xid_continue w) esc = true).
      { intros l esc Hin. rewrite (config_escapers _ _ _ _ Ec') in Hin. apply in_app_or in Hin as [Hin|Hin].
        - apply in_map_iff in Hin as (e & [= <- <-] & Hin). destruct Raw as [->|Raw]; [destruct Hin|exact (ES _ _ _ Raw Hin)].
        - cbn [DEFAULT_ESCAPERS In] in Hin. destruct Hin as [[= <- <-]|[[= <- <-]|[[= <- <-]|[]]]]; reflexivity. }
      split; [destruct (input_escaper_in _ _ _ _ _ Ei) as [l Hl]; exact (EA _ _ Hl)|exact EA].
    - destruct P as (_ & _ & _ & P1 & P2 & P3). repeat split; assumption. }
  unfold derive_template. destruct (build_source w files depth d) as [s|m| |]; [|rewrite (skeleton_is w d P)| |]; unfold unwrap_tokens; cbn [gsafe] in G.
  - rewrite G. discriminate.
  - rewrite (skeleton_closed w d P). discriminate.
  - destruct G.
  - discriminate.
Qed.
Print Assumptions C41_macro_partial.

(** ** C62 *)
(** [s] is code in front of which stand exactly the files [fs], each in an [include_bytes]. *)
Definition depends_on (plain : N -> bool) (s : str) (fs : list str) : Prop :=
  exists before after, s = before ++ lit "fn render_into(&self, writer: &mut (impl ::std::fmt::Write + ?Sized)) -> ::askama::Result<()> {" ++ NL ++
    concat (map (fun f => lit "include_bytes ! (" ++ debug_str plain f ++ lit ") ;" ++ NL) fs) ++ after.
(** The code names the canonical path of every file the template was made from, and no other. *)
Theorem C62_files_partial w d files depth s : derive_template w files depth d = GOk (Code s) ->
  exists a cfg i src fs, set_up w d a cfg i src /\ depends_on (o_plain w) s fs /\
    ((forall s, load w (i_path i) = Ok s -> s = src) ->
     forall c, In c fs <-> exists p, uses w cfg i src p /\ (is_inline (i_source i) = true -> p <> i_path i) /\ o_canonical w p = Some c).
Proof.
  unfold derive_template. destruct (build_source w files depth d) as [t|m| |] eqn:B; try discriminate.
  2:{ destruct (build_skeleton w d) as [t| | |]; try discriminate. unfold unwrap_tokens. destruct (lexes _ _ t); discriminate. }
  unfold unwrap_tokens. destruct (lexes _ _ t); [|discriminate]. intros [= ->].
  apply build_source_inv in B as (a & cfg & i & src & ts & ps & code & size & SU & Hts & Hps & Hb & ->). exists a, cfg, i, src, ps. split; [exact SU|]. split.
  - assert (E : code_text (o_plain w) (map SIncludeBytes ps) = concat (map (fun f => lit "include_bytes ! (" ++ debug_str (o_plain w) f ++ lit ") ;" ++ NL) ps)).
    { unfold code_text. rewrite map_map. reflexivity. }
    unfold depends_on, source_text, impl_template_text. cbn [fr_files frame_of]. rewrite E. exists (header_text (frame_of w d a i ps) (CRATE ++ lit "::Template")).
    eexists. repeat rewrite <- app_assoc. apply (f_equal (app _)). reflexivity.
  - intros Hsrc c. rewrite (canonical_in _ _ _ _ _ Hps c). destruct (find_used_spec _ _ _ _ _ Hsrc _ _ Hts) as (ND & _ & Rea). split; intros (p & X & Y); exists p; (split; [|exact Y]).
    + apply Rea. apply in_map_iff in X as ([p' ns] & <- & Hin). apply (SimScope.in_get p' ns _ ND) in Hin. cbn [fst]. congruence.
    + apply Rea in X. destruct (get p ts) as [ns|] eqn:E; [|destruct (X eq_refl)]. apply get_In in E. apply in_map_iff. exists (p, ns). auto.
Qed.
Print Assumptions C62_files_partial.

(** ** Examples *)
Fixpoint after_slash (s acc : str) : str := match s with [] => rev acc | c :: t => if c =? 47 then after_slash t [] else after_slash t (c :: acc) end.
Fixpoint up_to_slash (s acc sure : str) : str := match s with [] => sure | c :: t => if c =? 47 then up_to_slash t (acc ++ [c]) (acc ++ [c]) else up_to_slash t (acc ++ [c]) sure end.
Definition suppressing : raw_config := {| raw_general := Some {| g_dirs := None; g_default_syntax := None; g_whitespace := Some Suppress |}; raw_syntaxes := None; raw_escapers := None |}.
Definition ex_world (fs : dir) : outside :=
  {| o_root := Some (lit "/p"); o_join := fun a b => a ++ lit "/" ++ b; o_with_file_name := fun r n => up_to_slash r [] [] ++ n;
     o_name_of := fun p => match after_slash p [] with [] => None | n => Some n end;
     o_exists := fun p => match get p fs with Some _ => true | None => false end; o_read := fun p => get p fs;
     o_canonical := fun p => match get p fs with Some _ => Some (lit "/real" ++ p) | None => None end;
     o_toml := fun _ => Some suppressing; o_mime := fun x => if str_eqb x (lit "html") then lit "text/html" else lit "text/plain";
     o_lowercase := fun _ => false; o_debug := fun s => s; o_plain := ascii; o_xid_start := none; o_xid_continue := none;
     o_json := false; o_actix := true; o_axum := false; o_rocket := true; o_warp := false |}.
Definition ex_item (args : list meta) : item :=
  {| d_ident := lit "Page"; d_attrs := [Some args]; d_impl := lit "impl < 'a >"; d_impl_rocket := lit "impl < 'a , 'askama1 >"; d_where := lit "< 'a >" |}.
Definition str_arg (k v : str) : meta := MNameValue (Some k) (VStr v).
Definition ex_files : dir :=
  [(lit "/p/templates/main.html", lit "{% extends ""base.html"" %}{% block b %}{{ x }} {% include ""inc.html"" %}{% endblock %}
"); (lit "/p/templates/base.html", lit "<{% block b %}{% endblock %}> {{ y }}"); (lit "/p/templates/inc.html", lit "!"); (lit "/p/templates/other.html", lit "{{ z }}")].
Definition ex_page : item := ex_item [str_arg (lit "path") (lit "main.html")].
Fixpoint contains (x s : str) : bool := starts_with x s || match s with [] => false | _ :: t => contains x t end.
Definition code_with (r : gres answer) (f : str -> bool) : bool := match r with GOk (Code s) => f s | _ => false end.
Definition failed_with (r : gres answer) (f : str -> str -> bool) : bool := match r with GOk (Failed m (Some s)) => f m s | _ => false end.
Lemma ex_proper fs args : proper (ex_world fs) (ex_item args).
Proof. repeat split; try discriminate; vm_compute; reflexivity. Qed.
(** A template in three files: the code names them and not the fourth. *)
Example C62_example : code_with (derive_template (ex_world ex_files) 9 9 ex_page) (fun s =>
  contains (lit "include_bytes ! (""/real/p/templates/main.html"") ;") s && contains (lit "include_bytes ! (""/real/p/templates/base.html"") ;") s &&
  contains (lit "include_bytes ! (""/real/p/templates/inc.html"") ;") s && negb (contains (lit "other.html") s)) = true.
Proof. vm_compute. reflexivity. Qed.
(** Three kinds of mistakes: a syntax error, a missing file, an unknown attribute.  The code beside the error is the same. *)
Example C61_example :
  failed_with (derive_template (ex_world ex_files) 9 9 (ex_item [str_arg (lit "source") (lit "{% if %}"); str_arg (lit "ext") (lit "html")])) (fun m s => str_eqb m (lit "syntax error") && contains (lit "::askama::Template for Page< 'a > {") s) = true /\
  failed_with (derive_template (ex_world ex_files) 9 9 (ex_item [str_arg (lit "path") (lit "none.html")])) (fun m s => str_eqb m (lit "template not found") && contains (lit "::askama_rocket::rocket::response::Responder<'askama1, 'static> for Page") s) = true /\
  failed_with (derive_template (ex_world ex_files) 9 9 (ex_item [str_arg (lit "paht") (lit "main.html")])) (fun m s => contains (lit "::askama::Result<()> {" ++ NL ++ lit "::askama::Result::Ok(())" ++ NL ++ lit "}") s) = true.
Proof. vm_compute. auto. Qed.
(** C62 is false of the file with the configuration: it decides about the code, and the code does not name it, so a change in it
    goes unnoticed until something else changes. *)
Definition with_config : dir := (lit "/p/askama.toml", lit "[general]") :: ex_files.
Theorem C62_config_refuted : exists w w' d s s', (forall p, p <> lit "/p/askama.toml" -> o_read w' p = o_read w p) /\
  derive_template w 9 9 d = GOk (Code s) /\ derive_template w' 9 9 d = GOk (Code s') /\ s <> s' /\ contains (lit "askama.toml") s' = false.
Proof.
  assert (H : match derive_template (ex_world ex_files) 9 9 ex_page, derive_template (ex_world with_config) 9 9 ex_page with
              | GOk (Code s), GOk (Code s') => negb (str_eqb s s') && negb (contains (lit "askama.toml") s') | _, _ => false end = true) by (vm_compute; reflexivity).
  exists (ex_world ex_files), (ex_world with_config), ex_page.
  generalize dependent (derive_template (ex_world ex_files) 9 9 ex_page). generalize (derive_template (ex_world with_config) 9 9 ex_page). intros r' r H.
  destruct r as [[s|]| | |]; try discriminate H. destruct r' as [[s'|]| | |]; try discriminate H. apply andb_prop in H as [H1 H2]. exists s, s'. split; [|split; [reflexivity|split; [reflexivity|split]]].
  - intros p Hp. cbn [o_read ex_world]. unfold with_config. cbn [get]. destruct (str_eqb p (lit "/p/askama.toml")) eqn:E; [apply str_eqb_eq in E; destruct (Hp E)|reflexivity].
  - intros ->. rewrite str_eqb_refl in H1. discriminate H1.
  - destruct (contains _ s'); [discriminate H2|reflexivity].
Qed.
Print Assumptions C62_config_refuted.
(** C43 is false of a template in the attribute that refers to a file with the path made up for it: the file takes its place. *)
Definition inline_files : dir := [(lit "Page.html", lit "from the file")].
Definition inline_page : item := ex_item [str_arg (lit "source") (lit "from the attribute{% include ""Page.html"" %}"); str_arg (lit "ext") (lit "html")].
Theorem C43_inline_replaced_refuted : exists w d src s, In (Some [str_arg (lit "source") src; str_arg (lit "ext") (lit "html")]) (d_attrs d) /\
  contains (lit "from the attribute") src = true /\ derive_template w 9 9 d = GOk (Code s) /\ contains (lit "from the attribute") s = false /\ contains (lit "from the file") s = true.
Proof.
  assert (H : code_with (derive_template (ex_world inline_files) 9 9 inline_page) (fun s => negb (contains (lit "from the attribute") s) && contains (lit "from the file") s) = true) by (vm_compute; reflexivity).
  exists (ex_world inline_files), inline_page. exists (lit "from the attribute{% include ""Page.html"" %}"). generalize dependent (derive_template (ex_world inline_files) 9 9 inline_page). intros r H.
  destruct r as [[s|]| | |]; try discriminate H. apply andb_prop in H as [H1 H2]. exists s. split; [left; reflexivity|]. split; [vm_compute; reflexivity|]. split; [reflexivity|].
  split; [destruct (contains _ s); [discriminate H1|reflexivity]|exact H2].
Qed.
Print Assumptions C43_inline_replaced_refuted.
(** The conditions of C41_macro_partial, checked: the files are those the search finds. *)
Definition set_up_of (w : outside) (d : item) : res (template_args * config * template_input * str) :=
  let! a := template_args_new (d_attrs d) in let! toml := read_config_file w (a_config a) in let! cfg := config_of w toml (a_whitespace a) in
  let! i := input_of w d cfg a in let! src := match i_source i with SSource s => Ok s | SPath _ => load w (i_path i) end in Ok (a, cfg, i, src).
Lemma set_up_det w d a cfg i src : set_up w d a cfg i src -> set_up_of w d = Ok (a, cfg, i, src).
Proof.
  intros (toml & E1 & E2 & E3 & E4 & E5). unfold set_up_of. rewrite E1. cbn [rbind]. rewrite E2. cbn [rbind]. rewrite E3. cbn [rbind]. rewrite E4. cbn [rbind].
  destruct (i_source i); [rewrite E5; reflexivity|subst; reflexivity].
Qed.
Definition calm_files (fs : dir) (d : item) (D : N) : bool :=
  match set_up_of (ex_world fs) d with
  | Ok (a, cfg, i, src) =>
      negb (is_inline (i_source i)) &&
      match find_used_templates (find_from (ex_world fs) cfg) (load (ex_world fs)) (parse_text (ex_world fs) (i_syntax i)) 9 (i_path i) src with
      | GOk ts => forallb (fun x => (nestl (snd x) <=? D) && forallb place_ok (snd x) && forallb node_b (snd x) && str_eqb (up_to_slash (fst x) [] []) (up_to_slash (i_path i) [] [])) ts
      | _ => false
      end
  | _ => false
  end.
Lemma calm_files_ok fs args D depth files : simple_keys (ex_item args) -> source_given (ex_item args) -> calm_files fs (ex_item args) D = true -> N.of_nat depth * (D + 1) <= 59 ->
  derive_template (ex_world fs) files depth (ex_item args) <> GPanic.
Proof.
  intros SK SG C L. apply (C41_macro_partial _ _ D); [apply ex_proper|exact SK|exact SG| | |exact L|].
  - cbn [o_read o_canonical ex_world]. intros p s H. destruct (get p fs); [discriminate|discriminate H].
  - cbn [o_toml ex_world]. intros toml raw e [= <-] [].
  - intros a cfg i src SU. unfold calm_files in C. rewrite (set_up_det _ _ _ _ _ _ SU) in C. apply andb_prop in C as [C1 C].
    destruct (find_used_templates _ _ _ _ _ _) as [ts| | |] eqn:EF; try discriminate C. rewrite forallb_forall in C.
    assert (HL : forall s, load (ex_world fs) (i_path i) = Ok s -> s = src).
    { destruct SU as (toml & _ & _ & _ & _ & Es). destruct (i_source i); [|discriminate C1]. intros s E. congruence. }
    split; [exact HL|]. intros p ns U Hc. destruct (find_used_spec _ _ _ _ _ HL _ _ EF) as (ND & CT & RR).
    destruct (get p ts) as [ns'|] eqn:G; [|exfalso; apply (proj2 (RR p) U), G]. pose proof (contents_det _ _ _ _ HL _ _ _ Hc (CT _ _ G)) as ->.
    specialize (C (p, ns') (FlatFacts.get_in _ _ _ G)). cbn [fst snd] in C. apply andb_prop in C as [C X4]. apply andb_prop in C as [C X3]. apply andb_prop in C as [X1 X2].
    split; [lia|]. split; [apply place_sound, X2|]. split; [|apply template_ok, X3].
    intros x _. apply str_eqb_eq in X4. unfold find_from, find_template. cbn [o_with_file_name ex_world]. rewrite X4. reflexivity.
Qed.
Example C41_macro_example : forall files, derive_template (ex_world ex_files) files 9 ex_page <> GPanic.
Proof.
  intros files. apply (calm_files_ok _ _ 5).
  - intros items v [[= <-]|[]] [[=]|[]].
  - intros a [= <-]. discriminate.
  - vm_compute. reflexivity.
  - vm_compute. discriminate.
Qed.
