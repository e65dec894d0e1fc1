(** * C25, C28, C44-C48, C53: configuration, lookup, attributes. *)
From Verif Require Import Base Utf8 Filters Ws Config ConfigFacts.
Local Open Scope N_scope.

(** C25.  Exactly the valid syntaxes are accepted, and in a valid syntax at most one kind of tag can start anywhere. *)
Theorem C25_accepted_iff_valid : forall r s, try_into r = Ok s <-> s = syntax_of r /\ syntax_valid s.
Proof. exact try_into_correct. Qed.
Print Assumptions C25_accepted_iff_valid.
Theorem C25_config_syntaxes_valid : forall rj raw tw c, config_new rj raw tw = Ok c ->
  forall n s, assoc n (syntaxes c) = Some s -> syntax_valid s.
Proof. exact config_syntaxes_valid. Qed.
Print Assumptions C25_config_syntaxes_valid.
Theorem C25_unambiguous : forall s t, syntax_valid s ->
  ~ (starts_with (block_start s) t = true /\ starts_with (expr_start s) t = true) /\
  ~ (starts_with (block_start s) t = true /\ starts_with (comment_start s) t = true) /\
  ~ (starts_with (expr_start s) t = true /\ starts_with (comment_start s) t = true).
Proof. exact syntax_unambiguous. Qed.
Print Assumptions C25_unambiguous.
Definition raw_with (bs es cs : option str) : raw_syntax :=
  {| r_name := lit "foo"; r_block_start := bs; r_block_end := None; r_expr_start := es; r_expr_end := None;
     r_comment_start := cs; r_comment_end := None |}.
Example C25_example :
  (exists s, try_into (raw_with (Some (lit "{<")) None None) = Ok s /\ syntax_valid s) /\
  try_into (raw_with (Some (lit "<")) None None) = Err (lit "delimiter must be at least two characters long") /\
  try_into (raw_with (Some (lit "{{")) (Some (lit "{{$")) (Some (lit "{{#")))
    = Err (lit "a delimiter may not be the prefix of another delimiter").
Proof.
  split; [|vm_compute; auto]. eexists. split; [vm_compute; reflexivity|]. apply (try_into_correct (raw_with (Some (lit "{<")) None None)). vm_compute. reflexivity.
Qed.
(** The documented minimum of two characters is counted in bytes: a single non-ASCII character is accepted. *)
Theorem C25_two_characters_refuted : exists r s, try_into r = Ok s /\ length (block_start s) = 1%nat.
Proof. exists (raw_with (Some [233]) None None). eexists. split; vm_compute; reflexivity. Qed.
Print Assumptions C25_two_characters_refuted.

(** C28. *)
Theorem C28_whitespace_default : forall rj raw attr c, config_new rj raw (option_map ws_name attr) = Ok c ->
  whitespace c = documented_whitespace attr (let? g := raw_general raw in g_whitespace g).
Proof. exact config_whitespace. Qed.
Print Assumptions C28_whitespace_default.
Theorem C28_bad_whitespace : forall rj raw s, (forall h, s <> ws_name h) -> exists m, config_new rj raw (Some s) = Err m.
Proof. exact config_bad_whitespace. Qed.
Print Assumptions C28_bad_whitespace.
Definition cfg_ws (h : option handling) : raw_config :=
  {| raw_general := Some {| g_dirs := None; g_default_syntax := None; g_whitespace := h |}; raw_syntaxes := None; raw_escapers := None |}.
Example C28_example :
  (exists c, config_new (fun d => d) (cfg_ws (Some Suppress)) (Some (lit "minimize")) = Ok c /\ whitespace c = Minimize) /\
  (exists c, config_new (fun d => d) (cfg_ws (Some Suppress)) None = Ok c /\ whitespace c = Suppress) /\
  (exists m, config_new (fun d => d) empty_config (Some (lit "trim")) = Err m).
Proof. repeat split; eexists; vm_compute; eauto. Qed.

(** C44.  For every file system and every way paths are joined: the first existing candidate in the documented order. *)
Theorem C44_lookup_order : forall join wfn ex ds path start,
  match find_template join wfn ex ds path start with
  | Ok p => first_existing ex (candidates join wfn ds path start) p
  | Err _ => Forall (fun q => ex q = false) (candidates join wfn ds path start)
  | Panic => False
  end.
Proof. exact find_template_spec. Qed.
Print Assumptions C44_lookup_order.
Example C44_example :
  let ex p := mem_str p [lit "b/x"; lit "c/x"] in
  find_template (fun d p => d ++ lit "/" ++ p) (fun d p => lit "near/" ++ p) ex [lit "a"; lit "b"; lit "c"] (lit "x") (Some (lit "near/y"))
  = Ok (lit "b/x").
Proof. vm_compute. reflexivity. Qed.

(** C45.  The escaper is the first one, user escapers before built-in ones, that lists the escape attribute or else the
    extension of the file (the part after the last dot; the empty text if there is none). *)
Theorem C45_escaper_choice : forall join wfn ex name_of ident cfg a i, template_input_new join wfn ex name_of ident cfg a = Ok i ->
  let key := match a_escaping a with Some e => e | None => unwrap_or (path_extension (name_of (i_path i))) [] end in
  exists pre exts post, escapers cfg = pre ++ (exts, i_escaper i) :: post /\ In key exts /\ Forall (fun x => ~ In key (fst x)) pre.
Proof. exact input_escaper. Qed.
Print Assumptions C45_escaper_choice.
Theorem C45_user_before_builtin : forall rj raw tw c, config_new rj raw tw = Ok c ->
  escapers c = map (fun e => (re_extensions e, re_path e)) (unwrap_or (raw_escapers raw) []) ++ DEFAULT_ESCAPERS.
Proof. exact config_escapers. Qed.
Print Assumptions C45_user_before_builtin.
Theorem C45_none_is_error : forall join wfn ex name_of ident cfg a p, a_escaping a = None -> a_source a = Some (SPath p) ->
  forall q, find_template join wfn ex (dirs cfg) p None = Ok q ->
  Forall (fun x => ~ In (unwrap_or (path_extension (name_of q)) []) (fst x)) (escapers cfg) ->
  forall i, template_input_new join wfn ex name_of ident cfg a <> Ok i.
Proof. exact input_no_escaper. Qed.
Print Assumptions C45_none_is_error.
Theorem C45_builtin : forall k e, find_escaper k DEFAULT_ESCAPERS = Some e <-> In (k, e) builtin_escapers.
Proof. exact builtin_escapers_spec. Qed.
Print Assumptions C45_builtin.
Definition path_args (p : str) (esc : option str) : template_args :=
  {| a_source := Some (SPath p); a_block := None; a_print := PNone; a_escaping := esc; a_ext := None; a_syntax := None;
     a_config := None; a_whitespace := None |}.
Definition cfg_esc (l : list raw_escaper) : res config :=
  config_new (fun d => d) {| raw_general := None; raw_syntaxes := None; raw_escapers := Some l |} None.
Definition escaper_of (l : list raw_escaper) (p : str) (esc : option str) : res str :=
  let! c := cfg_esc l in
  let! i := template_input_new (fun d p => p) (fun d p => p) (fun _ => true) (fun p => Some p) (lit "T") c (path_args p esc) in
  Ok (i_escaper i).
Example C45_example :
  escaper_of [] (lit "a.txt") None = Ok (lit "::askama::Text") /\ escaper_of [] (lit "a.txt") (Some (lit "html")) = Ok (lit "::askama::Html") /\
  escaper_of [{| re_path := lit "Mine"; re_extensions := [lit "txt"] |}] (lit "a.txt") None = Ok (lit "Mine") /\
  escaper_of [] (lit "README") None = Ok (lit "::askama::Text") /\ escaper_of [] (lit "a.tex") None = Err (lit "no escaper defined for extension").
Proof. vm_compute. auto 10. Qed.
(** The documented extension of [a.txt.j2] is txt, yet its escaper is Html. *)
Theorem C45_reported_extension_refuted : escaper_of [] (lit "a.txt.j2") None = Ok (lit "::askama::Html") /\ extension (Some (lit "a.txt.j2")) = Some (lit "txt").
Proof. split; vm_compute; reflexivity. Qed.
Print Assumptions C45_reported_extension_refuted.

(** C46.  On file names: the extension before a jinja extension, else the extension. *)
Theorem C46_extension_plain : forall b e, no_dot e -> e <> [] -> b <> [] -> ~ In e JINJA_EXTENSIONS ->
  extension (Some (b ++ 46 :: e)) = Some e.
Proof. exact extension_plain. Qed.
Print Assumptions C46_extension_plain.
Theorem C46_extension_jinja : forall b e j, no_dot e -> e <> [] -> b <> [] -> In j JINJA_EXTENSIONS ->
  extension (Some (b ++ 46 :: e ++ 46 :: j)) = Some e.
Proof. exact extension_jinja. Qed.
Print Assumptions C46_extension_jinja.
Theorem C46_extension_jinja_only : forall b j, no_dot b -> b <> [] -> In j JINJA_EXTENSIONS -> extension (Some (b ++ 46 :: j)) = Some j.
Proof. exact extension_jinja_only. Qed.
Print Assumptions C46_extension_jinja_only.
Theorem C46_no_extension : forall s, no_dot s -> extension (Some s) = None.
Proof. exact extension_none. Qed.
Print Assumptions C46_no_extension.
Theorem C46_hidden_file : forall s, no_dot s -> extension (Some (46 :: s)) = None.
Proof. exact extension_hidden. Qed.
Print Assumptions C46_hidden_file.
(** The content type is looked up (in the mime_guess crate, trusted) for that extension. *)
Theorem C46_content_type : forall join wfn ex name_of ident cfg a i b e suf, template_input_new join wfn ex name_of ident cfg a = Ok i ->
  a_ext a = None -> name_of (i_path i) = Some (b ++ 46 :: e ++ suf) -> no_dot e -> e <> [] -> b <> [] ->
  (suf = [] /\ ~ In e JINJA_EXTENSIONS \/ exists j, suf = 46 :: j /\ In j JINJA_EXTENSIONS) -> i_mime_ext i = e.
Proof. exact input_mime. Qed.
Print Assumptions C46_content_type.
Example C46_example :
  extension (Some (lit "foo-bar.html.j2")) = Some (lit "html") /\ extension (Some (lit "foo-bar.txt.html")) = Some (lit "html") /\
  extension (Some (lit "foo-bar.jinja2")) = Some (lit "jinja2") /\ extension (Some (lit "README")) = None /\ extension (Some (lit ".html")) = None.
Proof. vm_compute. auto 10. Qed.

(** C47. *)
Theorem C47_one_newline_dropped : forall s, get_template_source (s ++ [10]) = s.
Proof. exact get_source_newline. Qed.
Print Assumptions C47_one_newline_dropped.
Theorem C47_otherwise_verbatim : forall s, (forall t, s <> t ++ [10]) -> get_template_source s = s.
Proof. exact get_source_other. Qed.
Print Assumptions C47_otherwise_verbatim.
Example C47_example : get_template_source (lit "a" ++ [10; 10]) = lit "a" ++ [10] /\ get_template_source [] = [].
Proof. vm_compute. auto. Qed.

(** C48.  Full statement: every attribute at most once, exactly one of path and source, ext exactly with source; every
    violation is a compile error.  Proved: one [template] attribute; at most one of path and source, and the one given is
    the one used; unknown keys are never accepted. *)
Theorem C48_one_source_partial : forall attrs a, template_args_new attrs = Ok a ->
  exists items, attrs = [Some items] /\
    match filter is_source_item items with
    | [] => a_source a = None
    | [m] => exists s, (m = MNameValue (Some (lit "path")) (VStr s) /\ a_source a = Some (SPath s)) \/
                       (m = MNameValue (Some (lit "source")) (VStr s) /\ a_source a = Some (SSource s))
    | _ => False
    end.
Proof. exact args_source. Qed.
Print Assumptions C48_one_source_partial.
Theorem C48_unknown_key_rejected : forall k v items1 items2, ~ In k known_keys ->
  forall a, exists r, set_args (items1 ++ MNameValue (Some k) v :: items2) a = r /\ (forall b, r <> Ok b).
Proof. exact unknown_key. Qed.
Print Assumptions C48_unknown_key_rejected.
Definition kv (k s : str) : meta := MNameValue (Some k) (VStr s).
Example C48_example :
  (exists a, template_args_new [Some [kv (lit "path") (lit "a.html"); kv (lit "print") (lit "code")]] = Ok a /\ a_source a = Some (SPath (lit "a.html"))) /\
  template_args_new [Some [kv (lit "path") (lit "a.html"); kv (lit "source") (lit "x")]] = Err (lit "must specify 'source' or 'path', not both").
Proof. split; [eexists|]; vm_compute; auto. Qed.
Definition input_of (items : list meta) : res template_input :=
  let! a := template_args_new [Some items] in
  let! c := config_new (fun d => d) empty_config (a_whitespace a) in
  template_input_new (fun d p => d ++ lit "/" ++ p) (fun d p => p) (fun _ => true) (fun p => Some p) (lit "T") c a.
(** Without path and source the macro panics instead of reporting an error. *)
Theorem C48_missing_source_is_error_refuted : exists items, input_of items = Panic /\ items = [kv (lit "ext") (lit "txt")].
Proof. eexists. split; [|reflexivity]. vm_compute. reflexivity. Qed.
Print Assumptions C48_missing_source_is_error_refuted.
(** A key that is a path of several segments panics. *)
Theorem C48_path_key_is_error_refuted : exists items, input_of items = Panic /\ items = [MNameValue None (VStr (lit "x"))].
Proof. eexists. split; [|reflexivity]. vm_compute. reflexivity. Qed.
Print Assumptions C48_path_key_is_error_refuted.
(** [ext] together with [path], documented as impossible, is accepted; escaping then follows the path and the content
    type follows [ext]. *)
Theorem C48_ext_with_path_refuted : exists i, input_of [kv (lit "path") (lit "a.txt"); kv (lit "ext") (lit "html")] = Ok i
  /\ i_escaper i = lit "::askama::Text" /\ i_mime_ext i = lit "html".
Proof. eexists. vm_compute. auto. Qed.
Print Assumptions C48_ext_with_path_refuted.
(** Attributes other than path/source may be repeated; the last one wins. *)
Theorem C48_given_once_refuted : exists a, template_args_new [Some [kv (lit "escape") (lit "html"); kv (lit "escape") (lit "none")]] = Ok a
  /\ a_escaping a = Some (lit "none").
Proof. eexists. vm_compute. auto. Qed.
Print Assumptions C48_given_once_refuted.

(** C53.  Inside the base directory the path is shown relative to it, and what is shown is always a suffix of the path. *)
Theorem C53_inside : forall base rest, rest <> [] -> strip_common base (base ++ rest) = rest.
Proof. exact strip_common_inside. Qed.
Print Assumptions C53_inside.
Theorem C53_suffix : forall base path, exists p, path = p ++ strip_common base path.
Proof. exact strip_common_suffix. Qed.
Print Assumptions C53_suffix.
(** Outside of it a relative path is shown, too: two files, one inside and one outside, are shown alike. *)
Theorem C53_only_inside_refuted : exists base p1 p2, p1 <> p2 /\ p1 = base ++ [lit "x"; lit "t.html"] /\
  (forall r, p2 <> base ++ r) /\ strip_common base p1 = strip_common base p2 /\ strip_common base p2 = [lit "x"; lit "t.html"].
Proof.
  exists [lit "/"; lit "a"; lit "b"], [lit "/"; lit "a"; lit "b"; lit "x"; lit "t.html"], [lit "/"; lit "a"; lit "x"; lit "t.html"].
  split; [discriminate|]. split; [reflexivity|]. split; [intros r; discriminate|]. vm_compute. auto.
Qed.
Print Assumptions C53_only_inside_refuted.
