(** * Model of the whole derive macro (askama_derive/src/lib.rs, [derive_template]), from the attributes of the struct to the
    text handed to the compiler.  Parsing the struct itself ([syn::parse], lib.rs:25) is trusted, as are the file system, TOML,
    and the table of content types; they are fields of [outside]. *)
From Verif Require Import Base Ws Config Ast ParseNode GenExpr Heritage Gen RustText GenText.
Local Open Scope N_scope.

(** What the macro gets from outside: the variable CARGO_MANIFEST_DIR; [Path::join], [Path::with_file_name], [Path::file_name],
    [Path::exists], [fs::read_to_string] and [Path::canonicalize]; [RawConfig::from_toml_str] (config.rs:201-212, [None]: an error);
    [mime_guess::from_ext]; what std and Rust know of characters; and which features are switched on.  Paths are strings, so
    [to_str] cannot fail. *)
Record outside := {
  o_root : option str; o_join : str -> str -> str; o_with_file_name : str -> str -> str; o_name_of : str -> option str;
  o_exists : str -> bool; o_read : str -> option str; o_canonical : str -> option str; o_toml : str -> option raw_config;
  o_mime : str -> str; o_lowercase : N -> bool; o_debug : str -> str; o_plain : N -> bool; o_xid_start : N -> bool; o_xid_continue : N -> bool;
  o_json : bool; o_actix : bool; o_axum : bool; o_rocket : bool; o_warp : bool }.
(** The struct: its name, its attributes (as in Config.v), [impl] with its generics, the same with ['askama1] added, and its generics
    and where clause, as written by [quote!] (generator.rs:217-246). *)
Record item := { d_ident : str; d_attrs : list (option (list meta)); d_impl : str; d_impl_rocket : str; d_where : str }.

Section Macro.
  Variable w : outside.
  (** config.rs:262-279 and the constant in line 304 *)
  Definition CONFIG_FILE_NAME : str := lit "askama.toml".
  Definition read_config_file (config_path : option str) : res str :=
    match o_root w with
    | None => Panic
    | Some root =>
        let filename := o_join w root (unwrap_or config_path CONFIG_FILE_NAME) in
        if o_exists w filename then match o_read w filename with Some s => Ok s | None => Err (lit "unable to read") end
        else match config_path with Some _ => Err (lit "does not exist") | None => Ok [] end
    end.
  (** config.rs:24-39: [Config::new], the part before Config.v *)
  Definition config_of (toml : str) (template_whitespace : option str) : res config :=
    match o_root w with
    | None => Panic
    | Some root =>
        let! raw := match toml with
                    | [] => Ok empty_config
                    | _ => match o_toml w toml with Some raw => Ok raw | None => Err (lit "invalid TOML") end
                    end in
        config_new (o_join w root) raw template_whitespace
    end.
  (** config.rs:287-301 *)
  Definition load (path : str) : res str :=
    match o_read w path with None => Err (lit "unable to open template file") | Some s => Ok (get_template_source s) end.
  (** config.rs:110-134, as called for the names in a template *)
  Definition find_from (cfg : config) (name from : str) : res str :=
    find_template (o_join w) (o_with_file_name w) (o_exists w) (dirs cfg) name (Some from).
  (** [Parsed::new], askama_parser/src/lib.rs:46-57; a syntax error becomes a compile error (lib.rs:126-131) *)
  Definition parse_text (sy : syntax) (s : str) : res (list node) :=
    match from_str (o_lowercase w) (o_debug w) sy s with Some (inl ns) => Ok ns | Some (inr _) => Err (lit "syntax error") | None => Panic end.
  Definition input_of (d : item) (cfg : config) (a : template_args) : res template_input :=
    template_input_new (o_join w) (o_with_file_name w) (o_exists w) (o_name_of w) (d_ident d) cfg a.
  (** What the generator uses of the input and of the configuration *)
  Definition ginput_of (cfg : config) (i : template_input) : ginput :=
    {| f_escaper := i_escaper i; f_escapers := escapers cfg; f_json := o_json w; f_ws := Config.whitespace cfg; f_block := i_block i; f_path := i_path i |}.
  (** input.rs:410-434; equality of media types is that of their text *)
  Definition UTF8_TYPES : list str :=
    [lit "text/plain"; lit "text/html"; lit "text/css"; lit "text/csv"; lit "text/tab-separated-values"; lit "application/javascript"].
  Definition extension_to_mime_type (ext : str) : str :=
    let basic := o_mime w ext in if mem_str basic UTF8_TYPES then basic ++ lit "; charset=utf-8" else basic.
  Definition frame_of (d : item) (a : template_args) (i : template_input) (files : list str) : frame :=
    {| fr_impl := d_impl d; fr_impl_rocket := d_impl_rocket d; fr_name := d_ident d; fr_where := d_where d; fr_files := files;
       fr_extension := ext_default_to_path (a_ext a) (o_name_of w (i_path i)); fr_mime := extension_to_mime_type (i_mime_ext i);
       fr_actix := o_actix w; fr_axum := o_axum w; fr_rocket := o_rocket w; fr_warp := o_warp w |}.
  (** generator.rs:93-110: the canonical paths of the templates; the path made up for a template in the attribute is left out.
      In the order of the search; the code uses the unspecified order of a HashMap. *)
  Fixpoint canonical_paths (inline : bool) (own : str) (paths : list str) : res (list str) :=
    match paths with
    | [] => Ok []
    | p :: l => if inline && str_eqb p own then canonical_paths inline own l
                else match o_canonical w p with None => Panic | Some c => let! r := canonical_paths inline own l in Ok (c :: r) end
    end.
  Definition is_inline (s : source) : bool := match s with SSource _ => true | SPath _ => false end.

  (** lib.rs:55-94.  [files] and [depth] bound the search for templates and the generator.  The canonical paths are looked up
      before the code is generated; in the code after the contexts are built, so a panic hides fewer errors there.  [print]
      (lib.rs:84-86, 90-92) writes to the terminal only and is left out. *)
  Definition build_source (files depth : nat) (d : item) : gres str :=
    let* a := of_res (template_args_new (d_attrs d)) in
    let* toml := of_res (read_config_file (a_config a)) in
    let* cfg := of_res (config_of toml (a_whitespace a)) in
    let* i := of_res (input_of d cfg a) in
    let* src := of_res (match i_source i with SSource s => Ok s | SPath _ => load (i_path i) end) in
    let* templates := find_used_templates (find_from cfg) load (parse_text (i_syntax i)) files (i_path i) src in
    let* paths := of_res (canonical_paths (is_inline (i_source i)) (i_path i) (map fst templates)) in
    let* (code, size) := build_template (ginput_of cfg i) (find_from cfg) depth templates in
    GOk (source_text (o_plain w) (frame_of d a i paths) code size).
  (** input.rs:344-350 *)
  Definition fallback : template_args :=
    {| a_source := Some (SSource []); a_block := None; a_print := PNone; a_escaping := None; a_ext := Some (lit "txt"); a_syntax := None;
       a_config := None; a_whitespace := None |}.
  (** lib.rs:39-46.  The only path is the made-up one. *)
  Definition build_skeleton (d : item) : gres str :=
    let* cfg := of_res (config_of [] None) in
    let* i := of_res (input_of d cfg fallback) in
    let* (code, size) := impl_template (ginput_of cfg i) [(i_path i, no_context)] (find_from cfg) 1 None no_context in
    GOk (source_text (o_plain w) (frame_of d fallback i []) code size).

  (** What the compiler gets: the code, or an error and perhaps code as well *)
  Inductive answer := Code (s : str) | Failed (msg : str) (s : option str).
  (** lib.rs:24-37; [lexes] (RustText.v): the text can be turned into a token stream, otherwise [unwrap] panics *)
  Definition unwrap_tokens (s : str) : gres str := if lexes (o_xid_start w) (o_xid_continue w) s then GOk s else GPanic.
  Definition derive_template (files depth : nat) (d : item) : gres answer :=
    match build_source files depth d with
    | GOk s => let* s := unwrap_tokens s in GOk (Code s)
    | GErr m => match build_skeleton d with
                | GOk s => let* s := unwrap_tokens s in GOk (Failed m (Some s))
                | GErr _ => GOk (Failed m None)
                | GPanic => GPanic
                | GFuel => GFuel
                end
    | GPanic => GPanic
    | GFuel => GFuel
    end.
End Macro.
