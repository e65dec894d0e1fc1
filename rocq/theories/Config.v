(** * Model of askama_derive/src/config.rs and the attribute handling of askama_derive/src/input.rs. *)
From Verif Require Import Base Utf8 Filters Ws.
Local Open Scope N_scope.

(** ** Syntax (askama_parser/src/lib.rs:593-614) *)
Record syntax := { block_start : str; block_end : str; expr_start : str; expr_end : str; comment_start : str; comment_end : str }.
Definition default_syntax : syntax :=
  {| block_start := lit "{%"; block_end := lit "%}"; expr_start := lit "{{"; expr_end := lit "}}";
     comment_start := lit "{#"; comment_end := lit "#}" |}.

(** config.rs:244-254 *)
Record raw_syntax := { r_name : str; r_block_start : option str; r_block_end : option str; r_expr_start : option str;
                       r_expr_end : option str; r_comment_start : option str; r_comment_end : option str }.

(** askama_parser/src/expr.rs:435-436 *)
Definition TWO_PLUS_CHAR_OPS : list str :=
  [lit "||"; lit "&&"; lit "=="; lit "!="; lit ">="; lit "<="; lit "<<"; lit ">>"; lit ".."; lit "..="].

(** One delimiter, config.rs:159-171.  Delimiters are texts of characters; [len] is in bytes. *)
Definition check_delim (s : str) : res unit :=
  if Nat.ltb (length (encode s)) 2 then Err (lit "delimiter must be at least two characters long")
  else if existsb is_whitespace s then Err (lit "delimiter may not contain whitespace")
  else if mem_str s TWO_PLUS_CHAR_OPS then Err (lit "delimiter may not contain operators")
  else Ok tt.
Fixpoint check_delims (l : list str) : res unit :=
  match l with [] => Ok tt | s :: l' => let! _ := check_delim s in check_delims l' end.
(** config.rs:174-184 *)
Fixpoint check_pairs (l : list (str * str)) : res unit :=
  match l with
  | [] => Ok tt
  | (s1, s2) :: l' => if starts_with s2 s1 || starts_with s1 s2 then Err (lit "a delimiter may not be the prefix of another delimiter")
                      else check_pairs l'
  end.
Definition unwrap_or {A} (o : option A) (d : A) : A := match o with Some a => a | None => d end.
(** config.rs:137-190: [TryInto<Syntax> for RawSyntax]. *)
Definition try_into (r : raw_syntax) : res syntax :=
  let s := {| block_start := unwrap_or (r_block_start r) (block_start default_syntax);
              block_end := unwrap_or (r_block_end r) (block_end default_syntax);
              expr_start := unwrap_or (r_expr_start r) (expr_start default_syntax);
              expr_end := unwrap_or (r_expr_end r) (expr_end default_syntax);
              comment_start := unwrap_or (r_comment_start r) (comment_start default_syntax);
              comment_end := unwrap_or (r_comment_end r) (comment_end default_syntax) |} in
  let! _ := check_delims [block_start s; block_end s; expr_start s; expr_end s; comment_start s; comment_end s] in
  let! _ := check_pairs [(block_start s, expr_start s); (block_start s, comment_start s); (expr_start s, comment_start s)] in
  Ok s.

(** ** Config::new (config.rs:24-108) *)
(** [General], config.rs:234-242 (a missing [whitespace] key deserialises to the default, [Preserve]). *)
Record general := { g_dirs : option (list str); g_default_syntax : option str; g_whitespace : option handling }.
Record raw_escaper := { re_path : str; re_extensions : list str }.
(** [RawConfig], config.rs:192-199: what TOML parsing (trusted, serde) yields. *)
Record raw_config := { raw_general : option general; raw_syntaxes : option (list raw_syntax); raw_escapers : option (list raw_escaper) }.
Definition empty_config : raw_config := {| raw_general := None; raw_syntaxes := None; raw_escapers := None |}.

Record config := { dirs : list str; syntaxes : list (str * syntax); default_syntax_name : str;
                   escapers : list (list str * str); whitespace : handling }.

(** config.rs:97-99, 304-310, with the prefix of lib.rs:182-192 with no integration feature. *)
Definition DEFAULT_SYNTAX_NAME : str := lit "default".
Definition DEFAULT_ESCAPERS : list (list str * str) :=
  [([lit "html"; lit "htm"; lit "svg"; lit "xml"], lit "::askama::Html");
   ([lit "md"; lit "none"; lit "txt"; lit "typ"; lit "yml"; lit ""], lit "::askama::Text");
   ([lit "j2"; lit "jinja"; lit "jinja2"], lit "::askama::Html")].

Fixpoint assoc {A} (k : str) (l : list (str * A)) : option A :=
  match l with [] => None | (k', v) :: l' => if str_eqb k k' then Some v else assoc k l' end.

(** config.rs:58-65 *)
Definition parse_whitespace (s : str) : res handling :=
  if str_eqb s (lit "suppress") then Ok Suppress
  else if str_eqb s (lit "minimize") then Ok Minimize
  else if str_eqb s (lit "preserve") then Ok Preserve
  else Err (lit "invalid value for `whitespace`").

(** config.rs:67-78.  The map is an association list without duplicate keys. *)
Fixpoint add_syntaxes (l : list raw_syntax) (m : list (str * syntax)) : res (list (str * syntax)) :=
  match l with
  | [] => Ok m
  | r :: l' => let! s := try_into r in
               match assoc (r_name r) m with
               | Some _ => Err (lit "syntax is already defined")
               | None => add_syntaxes l' (m ++ [(r_name r, s)])
               end
  end.

(** config.rs:24-108.  [root_join] is [root.join(dir)], with [root] the manifest directory. *)
Definition config_new (root_join : str -> str) (raw : raw_config) (template_whitespace : option str) : res config :=
  let g := unwrap_or (raw_general raw) {| g_dirs := None; g_default_syntax := None; g_whitespace := None |} in
  let ds := match g_dirs g with None => [root_join (lit "templates")] | Some v => map root_join v end in
  let dsyn := unwrap_or (g_default_syntax g) DEFAULT_SYNTAX_NAME in
  let! w := match template_whitespace with
            | None => Ok (unwrap_or (g_whitespace g) Preserve)
            | Some tw => parse_whitespace tw
            end in
  let! syns := add_syntaxes (unwrap_or (raw_syntaxes raw) []) [(DEFAULT_SYNTAX_NAME, default_syntax)] in
  match assoc dsyn syns with
  | None => Err (lit "default syntax not found")
  | Some _ =>
      Ok {| dirs := ds; syntaxes := syns; default_syntax_name := dsyn;
            escapers := map (fun e => (re_extensions e, re_path e)) (unwrap_or (raw_escapers raw) []) ++ DEFAULT_ESCAPERS;
            whitespace := w |}
  end.

(** ** find_template (config.rs:110-134) *)
Section Fs.
  (** [Path::join], [Path::with_file_name] and [Path::exists] (std and the file system). *)
  Variables (join : str -> str -> str) (with_file_name : str -> str -> str) (exists_file : str -> bool).
  Fixpoint find_dir (ds : list str) (path : str) : option str :=
    match ds with
    | [] => None
    | d :: ds' => if exists_file (join d path) then Some (join d path) else find_dir ds' path
    end.
  Definition find_template (ds : list str) (path : str) (start_at : option str) : res str :=
    let rel := match start_at with
               | Some root => if exists_file (with_file_name root path) then Some (with_file_name root path) else None
               | None => None
               end in
    match rel with
    | Some p => Ok p
    | None => match find_dir ds path with
              | Some p => Ok p
              | None => Err (lit "template not found")
              end
    end.
End Fs.

(** ** get_template_source (config.rs:287-301) *)
(** [source.ends_with('\n')] and [source.pop()]. *)
Definition get_template_source (source : str) : str :=
  match last_opt source with
  | Some c => if c =? 10 then removelast source else source
  | None => source
  end.

(** ** Extensions (input.rs:360-375) and [std::path] on file names *)
(** [Path::file_name] of a one-component path. *)
Definition file_name (s : str) : option str :=
  match s with
  | [] => None
  | _ => if str_eqb s (lit ".") || str_eqb s (lit "..") then None else Some s
  end.
(** [str::rsplitn(2, '.')]: the part after the last dot and, if there is a dot, the part before it. *)
Fixpoint rsplit_dot (s : str) : option str * str :=
  match s with
  | [] => (None, [])
  | c :: s' =>
      match rsplit_dot s' with
      | (Some b, a) => (Some (c :: b), a)
      | (None, a) => if c =? 46 then (Some [], a) else (None, c :: a)
      end
  end.
(** std's [rsplit_file_at_dot] (trusted): file name to (stem, extension). *)
Definition rsplit_file_at_dot (file : str) : option str * option str :=
  if str_eqb file (lit "..") then (Some file, None)
  else match rsplit_dot file with
       | (Some [], _) => (Some file, None)
       | (Some b, a) => (Some b, Some a)
       | (None, a) => (None, Some a)
       end.
Definition path_extension (file : option str) : option str :=
  let? f := file in match rsplit_file_at_dot f with (Some _, Some a) => Some a | _ => None end.
Definition path_file_stem (file : option str) : option str :=
  let? f := file in match rsplit_file_at_dot f with (Some b, _) => Some b | (None, a) => a end.
Definition JINJA_EXTENSIONS : list str := [lit "j2"; lit "jinja"; lit "jinja2"].
(** input.rs:362-375: [extension]; the argument is the file name of the path. *)
Definition extension (file : option str) : option str :=
  let? ext := path_extension file in
  if mem_str ext JINJA_EXTENSIONS then
    match path_extension (let? stem := path_file_stem file in file_name stem) with
    | Some e => Some e
    | None => Some ext
    end
  else Some ext.
(** input.rs:357-360 *)
Definition ext_default_to_path (ext file : option str) : option str :=
  match ext with Some e => Some e | None => extension file end.

(** ** TemplateArgs::new (input.rs:225-343) *)
(** One argument inside [template(...)], as parsed by syn (trusted). *)
Inductive meta_value := VStr (s : str) | VOtherLit | VNotLit.
Inductive meta := MNameValue (key : option str) (value : meta_value)   (* [None]: a key that is not a single identifier *)
                | MOther.
Inductive source := SPath (p : str) | SSource (s : str).
Inductive print := PAll | PAst | PCode | PNone.
Record template_args := { a_source : option source; a_block : option str; a_print : print; a_escaping : option str;
                          a_ext : option str; a_syntax : option str; a_config : option str; a_whitespace : option str }.
Definition no_args : template_args :=
  {| a_source := None; a_block := None; a_print := PNone; a_escaping := None; a_ext := None; a_syntax := None;
     a_config := None; a_whitespace := None |}.
(** input.rs:387-400 *)
Definition parse_print (s : str) : res print :=
  if str_eqb s (lit "all") then Ok PAll else if str_eqb s (lit "ast") then Ok PAst
  else if str_eqb s (lit "code") then Ok PCode else if str_eqb s (lit "none") then Ok PNone
  else Err (lit "invalid value for print option").
Definition str_value (v : meta_value) (msg : str) : res str := match v with VStr s => Ok s | _ => Err msg end.
(** One iteration of the loop input.rs:248-340. *)
Definition set_arg (item : meta) (a : template_args) : res template_args :=
  match item with
  | MOther => Err (lit "unsupported attribute argument")
  | MNameValue None _ => Panic                             (* unreachable!(..), input.rs:262-265 *)
  | MNameValue (Some _) VNotLit => Err (lit "unsupported argument value type")
  | MNameValue (Some key) v =>
      if str_eqb key (lit "path") then
        let! s := str_value v (lit "template path must be string literal") in
        match a_source a with
        | Some _ => Err (lit "must specify 'source' or 'path', not both")
        | None => Ok {| a_source := Some (SPath s); a_block := a_block a; a_print := a_print a; a_escaping := a_escaping a;
                        a_ext := a_ext a; a_syntax := a_syntax a; a_config := a_config a; a_whitespace := a_whitespace a |}
        end
      else if str_eqb key (lit "source") then
        let! s := str_value v (lit "template source must be string literal") in
        match a_source a with
        | Some _ => Err (lit "must specify 'source' or 'path', not both")
        | None => Ok {| a_source := Some (SSource s); a_block := a_block a; a_print := a_print a; a_escaping := a_escaping a;
                        a_ext := a_ext a; a_syntax := a_syntax a; a_config := a_config a; a_whitespace := a_whitespace a |}
        end
      else if str_eqb key (lit "block") then
        let! s := str_value v (lit "block value must be string literal") in
        Ok {| a_source := a_source a; a_block := Some s; a_print := a_print a; a_escaping := a_escaping a;
              a_ext := a_ext a; a_syntax := a_syntax a; a_config := a_config a; a_whitespace := a_whitespace a |}
      else if str_eqb key (lit "print") then
        let! s := str_value v (lit "print value must be string literal") in
        let! p := parse_print s in
        Ok {| a_source := a_source a; a_block := a_block a; a_print := p; a_escaping := a_escaping a;
              a_ext := a_ext a; a_syntax := a_syntax a; a_config := a_config a; a_whitespace := a_whitespace a |}
      else if str_eqb key (lit "escape") then
        let! s := str_value v (lit "escape value must be string literal") in
        Ok {| a_source := a_source a; a_block := a_block a; a_print := a_print a; a_escaping := Some s;
              a_ext := a_ext a; a_syntax := a_syntax a; a_config := a_config a; a_whitespace := a_whitespace a |}
      else if str_eqb key (lit "ext") then
        let! s := str_value v (lit "ext value must be string literal") in
        Ok {| a_source := a_source a; a_block := a_block a; a_print := a_print a; a_escaping := a_escaping a;
              a_ext := Some s; a_syntax := a_syntax a; a_config := a_config a; a_whitespace := a_whitespace a |}
      else if str_eqb key (lit "syntax") then
        let! s := str_value v (lit "syntax value must be string literal") in
        Ok {| a_source := a_source a; a_block := a_block a; a_print := a_print a; a_escaping := a_escaping a;
              a_ext := a_ext a; a_syntax := Some s; a_config := a_config a; a_whitespace := a_whitespace a |}
      else if str_eqb key (lit "config") then
        let! s := str_value v (lit "config value must be string literal") in
        Ok {| a_source := a_source a; a_block := a_block a; a_print := a_print a; a_escaping := a_escaping a;
              a_ext := a_ext a; a_syntax := a_syntax a; a_config := Some s; a_whitespace := a_whitespace a |}
      else if str_eqb key (lit "whitespace") then
        let! s := str_value v (lit "whitespace value must be string literal") in
        Ok {| a_source := a_source a; a_block := a_block a; a_print := a_print a; a_escaping := a_escaping a;
              a_ext := a_ext a; a_syntax := a_syntax a; a_config := a_config a; a_whitespace := Some s |}
      else Err (lit "unsupported attribute key")
  end.
Fixpoint set_args (items : list meta) (a : template_args) : res template_args :=
  match items with [] => Ok a | i :: items' => let! a := set_arg i a in set_args items' a end.
(** input.rs:226-247: the [template(..)] attributes of the struct; [None]: an attribute whose arguments do not parse. *)
Fixpoint only_attr (attrs : list (option (list meta))) (found : option (list meta)) : res (option (list meta)) :=
  match attrs with
  | [] => Ok found
  | None :: _ => Err (lit "unable to parse template arguments")
  | Some args :: attrs' => match found with
                           | None => only_attr attrs' (Some args)
                           | Some _ => Err (lit "duplicated 'template' attribute")
                           end
  end.
Definition template_args_new (attrs : list (option (list meta))) : res template_args :=
  let! found := only_attr attrs None in
  match found with
  | None => Err (lit "no attribute 'template' found")
  | Some items => set_args items no_args
  end.

(** ** TemplateInput::new (input.rs:31-107) *)
Fixpoint find_escaper (escaping : str) (l : list (list str * str)) : option str :=
  match l with
  | [] => None
  | (exts, path) :: l' => if mem_str escaping exts then Some path else find_escaper escaping l'
  end.
Record template_input := { i_path : str; i_syntax : syntax; i_escaper : str; i_mime_ext : str; i_block : option str; i_source : source }.
Section Input.
  Variables (join : str -> str -> str) (with_file_name : str -> str -> str) (exists_file : str -> bool).
  (** The file name of a path (std). *)
  Variable name_of : str -> option str.
  (** [ident] is the name of the struct. *)
  Definition template_input_new (ident : str) (cfg : config) (a : template_args) : res template_input :=
    match a_source a with
    | None => Panic                              (* .expect("template path or source not found in attributes") *)
    | Some src =>
        let! path := match src, a_ext a with
                     | SPath p, _ => find_template join with_file_name exists_file (dirs cfg) p None
                     | SSource _, Some ext => Ok (ident ++ lit "." ++ ext)
                     | SSource _, None => Err (lit "must include 'ext' attribute when using 'source' attribute")
                     end in
        let! syn := match a_syntax a with
                    | None => match assoc (default_syntax_name cfg) (syntaxes cfg) with Some s => Ok s | None => Panic end
                    | Some n => match assoc n (syntaxes cfg) with Some s => Ok s | None => Err (lit "attribute syntax not exist") end
                    end in
        let escaping := match a_escaping a with
                        | Some e => e
                        | None => unwrap_or (path_extension (name_of path)) []
                        end in
        match find_escaper escaping (escapers cfg) with
        | None => Err (lit "no escaper defined for extension")
        | Some esc =>
            Ok {| i_path := path; i_syntax := syn; i_escaper := esc;
                  i_mime_ext := unwrap_or (ext_default_to_path (a_ext a) (name_of path)) (lit "txt");
                  i_block := a_block a; i_source := src |}
        end
    end.
End Input.

(** ** strip_common (askama_parser/src/lib.rs:659-684) *)
(** Paths are lists of components; [canonicalize] has succeeded (otherwise the path is shown unchanged). The result is
    the list of shown components and whether the whole path is shown. *)
Fixpoint drop_common (base path : list str) : option (list str) :=
  match base with
  | [] => Some path
  | b :: base' => match path with
                  | [] => None                      (* peek() is None: the whole path is returned *)
                  | p :: path' => if str_eqb b p then drop_common base' path' else Some path
                  end
  end.
Definition strip_common (base path : list str) : list str :=
  match drop_common base path with
  | None | Some [] => path
  | Some parts => parts
  end.
