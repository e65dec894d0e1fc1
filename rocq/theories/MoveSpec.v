(** * Specification: the same templates, and the same generated code, at other places of the file system.  No definition here
    models code in /repo. *)
From Verif Require Import Base Ws Config Ast GenExpr Heritage Gen TreeSpec GenText Derive.
Local Open Scope N_scope.

(** The template that a tag refers to, and all names of templates in a template *)
Definition refers_to (n : node) : option str :=
  match n with NInclude _ p | NImport _ p _ | NExtends p => Some p | _ => None end.
Definition mentions (ns : list node) (p : str) : Prop := exists b n, occurs ns b n /\ refers_to n = Some p.

Section Move.
  (** Where a path is moved to *)
  Variable mv : str -> str.
  Definition moved_templates (l : list (str * list node)) : list (str * list node) := map (fun t => (mv (fst t), snd t)) l.
  Definition moved_input (inp : ginput) : ginput :=
    {| f_escaper := f_escaper inp; f_escapers := f_escapers inp; f_json := f_json inp; f_ws := f_ws inp; f_block := f_block inp; f_path := mv (f_path inp) |}.
  (** The same code, but [include_bytes!] names the moved files *)
  Fixpoint moved_stmt (s : stmt) : stmt :=
    match s with
    | SIncludeBytes p => SIncludeBytes (mv p)
    | SIf bs => SIf (map (fun b => (fst b, map moved_stmt (snd b))) bs)
    | SMatch e arms => SMatch e (map (fun a => (fst a, map moved_stmt (snd a))) arms)
    | SLoop h it how flt v b e t => SLoop h it how flt v (map moved_stmt b) (map moved_stmt e) (map moved_stmt t)
    | SBlock b => SBlock (map moved_stmt b)
    | s => s
    end.
  Definition moved_code (c : list stmt) : list stmt := map moved_stmt c.
  Definition moved_path (r : res str) : res str := match r with Ok p => Ok (mv p) | Err m => Err m | Panic => Panic end.
End Move.
(** The outcome with its value changed *)
Definition gmap {A B} (f : A -> B) (r : gres A) : gres B :=
  match r with GOk a => GOk (f a) | GErr m => GErr m | GPanic => GPanic | GFuel => GFuel end.

(** ** A project at another place.  [mv]: where each path is afterwards; [rel]: a name relative to a directory, that does not lead out
    of it; [home]: a directory of the project; [file]: a file of the project. *)
Record moved_world (mv : str -> str) (rel home file : str -> Prop) (w w' : outside) : Prop := {
  m_root : o_root w' = option_map mv (o_root w);
  m_home : forall r, o_root w = Some r -> home r;
  m_join : forall d n, home d -> rel n -> o_join w' (mv d) n = mv (o_join w d n) /\ home (o_join w d n) /\ file (o_join w d n);
  m_with : forall f n, file f -> rel n -> o_with_file_name w' (mv f) n = mv (o_with_file_name w f n) /\ file (o_with_file_name w f n);
  m_name : forall f, file f -> o_name_of w' (mv f) = o_name_of w f;
  m_exists : forall p, o_exists w' (mv p) = o_exists w p;
  m_read : forall p, o_read w' (mv p) = o_read w p;
  m_canonical : forall p, o_canonical w' (mv p) = option_map mv (o_canonical w p);
  m_toml : o_toml w' = o_toml w; m_mime : o_mime w' = o_mime w; m_lowercase : o_lowercase w' = o_lowercase w; m_debug : o_debug w' = o_debug w;
  m_plain : o_plain w' = o_plain w; m_json : o_json w' = o_json w;
  m_flags : (o_actix w', o_axum w', o_rocket w', o_warp w') = (o_actix w, o_axum w, o_rocket w, o_warp w) }.
(** All names in the attributes, the configuration and the templates are relative.  The path made up for a template in the attribute
    is not moved. *)
Record all_relative (mv : str -> str) (rel file : str -> Prop) (w : outside) (d : item) : Prop := {
  r_toml : rel (lit "askama.toml"); r_templates : rel (lit "templates");
  r_config : forall a c, template_args_new (d_attrs d) = Ok a -> a_config a = Some c -> rel c;
  r_path : forall a p, template_args_new (d_attrs d) = Ok a -> a_source a = Some (SPath p) -> rel p;
  r_inline : forall a s ext, template_args_new (d_attrs d) = Ok a -> a_source a = Some (SSource s) -> a_ext a = Some ext ->
               file (d_ident d ++ lit "." ++ ext) /\ mv (d_ident d ++ lit "." ++ ext) = d_ident d ++ lit "." ++ ext;
  r_dirs : forall t raw g ds x, o_toml w t = Some raw -> raw_general raw = Some g -> g_dirs g = Some ds -> In x ds -> rel x;
  r_names : forall a toml cfg i src ns p, template_args_new (d_attrs d) = Ok a -> config_of w toml (a_whitespace a) = Ok cfg -> input_of w d cfg a = Ok i ->
              a_source a = Some (SSource src) \/ (exists f s, o_read w f = Some s /\ src = get_template_source s) ->
              parse_text w (i_syntax i) src = Ok ns -> mentions ns p -> rel p }.
(** The parts of the text around the code, with the files moved *)
Definition moved_frame (mv : str -> str) (fr : frame) : frame :=
  {| fr_impl := fr_impl fr; fr_impl_rocket := fr_impl_rocket fr; fr_name := fr_name fr; fr_where := fr_where fr; fr_files := map mv (fr_files fr);
     fr_extension := fr_extension fr; fr_mime := fr_mime fr; fr_actix := fr_actix fr; fr_axum := fr_axum fr; fr_rocket := fr_rocket fr; fr_warp := fr_warp fr |}.
(** Two places exchanged *)
Definition exchanged (p q x : str) : str := if str_eqb x p then q else if str_eqb x q then p else x.
