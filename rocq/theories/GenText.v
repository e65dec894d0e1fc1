(** * Model of the text of the generated code (askama_derive/src/generator.rs), which [derive_template] hands to the compiler.
    Gen.v builds trees of statements; here every statement is written as the generator writes it, line by line.  The blanks at
    the beginning of lines ([Buffer::write], generator.rs:1866-1878) are left out. *)
From Verif Require Import Base Ws Ast LitSpec RustText Ident GenExpr Heritage Gen.
Local Open Scope N_scope.

(** ** Debug formatting of text: core::fmt, [<str as Debug>::fmt], as used by the format strings in generator.rs:1010, 1020, 736
    and 742.  Which characters are written as they are is a parameter: the standard library has tables of the printable
    ones.  Numbers that are no characters do not occur in text; they are written as they are. *)
Definition hex_digit (n : N) : N := if n <? 10 then 48 + n else 87 + n.
Fixpoint to_hex (fuel : nat) (n : N) : str :=
  match fuel with
  | O => []
  | S f => if n <? 16 then [hex_digit n] else to_hex f (n / 16) ++ [hex_digit (n mod 16)]
  end.
Definition NL : str := [10].
Section Text.
  Variable plain : N -> bool.
  Definition debug_char (c : N) : str :=
    if c =? 0 then lit "\0" else if c =? 9 then lit "\t" else if c =? 13 then lit "\r" else if c =? 10 then lit "\n"
    else if c =? 34 then lit "\""" else if c =? 92 then lit "\\"
    else if plain c || negb (scalar c) then [c] else lit "\u{" ++ to_hex 6 c ++ lit "}".
  Definition debug_str (s : str) : str := lit """" ++ concat (map debug_char s) ++ lit """".

  (** generator.rs:1690-1771: [visit_target], of a target whose names are already normalised *)
  Definition amp (first_level : bool) : str := if first_level then lit "&" else [].
  Fixpoint target_text (first_level : bool) (t : target) : str :=
    match t with
    | TName x => x
    | TOrChain [] => lit "_"
    | TOrChain l => join_with (lit " | ") (map (target_text first_level) l)
    | TTuple p l => join_with (lit "::") p ++ lit "(" ++ concat (map (fun t => target_text false t ++ lit ",") l) ++ lit ")"
    | TStruct p l => join_with (lit "::") p ++ lit " { " ++
                     concat (map (fun x => fst x ++ lit ": " ++ target_text false (snd x) ++ lit ",") l) ++ lit " }"
    | TPath p => join_with (lit "::") p
    | TStrLit s => amp first_level ++ lit """" ++ s ++ lit """"
    | TCharLit s => amp first_level ++ lit "'" ++ s ++ lit "'"
    | TNumLit s | TBoolLit s => amp first_level ++ s
    end.
  (** generator.rs:1106-1143: [named_expression]: one argument of a format string *)
  Definition arg_text (a : nat * rexpr) : str := arg_name (fst a) ++ lit " = &" ++ show (snd a) ++ lit ",".
  (** The arguments on lines of their own, without the line break after the last one ([trim], generator.rs:1021 and 745) *)
  Definition args_text (args : list (nat * rexpr)) : str := join_with NL (map arg_text args).
  (** generator.rs:359-399 *)
  Definition test_text (first : bool) (t : rtest) : str :=
    let head := if first then lit "if " else lit "} else if " in
    match t with
    | RIf e => head ++ lit "*(&(" ++ show e ++ lit ") as &bool)"
    | RIfLet p e => head ++ lit "let " ++ target_text true p ++ lit " = &" ++ show e
    | RIfLetChain p op l r => head ++ lit "let " ++ target_text true p ++ lit " = &" ++ show l ++ lit " " ++ op ++ lit " " ++ show r
    | RElse => lit "} else"
    end ++ lit " {" ++ NL.
  (** generator.rs:487-509 *)
  Definition iter_text (how : iter_kind) (e : rexpr) : str :=
    match how with
    | IterRange => show e
    | IterArray => show e ++ lit ".iter()"
    | IterInto => lit "(" ++ show e ++ lit ").into_iter()"
    | IterRefInto => lit "(&" ++ show e ++ lit ").into_iter()"
    end.
  (** One statement:
      - writes: generator.rs:1005-1030
      - let: generator.rs:871-902, 687-690 (the arguments of macros) and 733-748 (filter blocks)
      - if, match, for: generator.rs:340-552
      - blocks: generator.rs:586 and 701 (macros)
      - break, continue: generator.rs:310-319
      - include_bytes: generator.rs:104-109 and 789-796; how [quote!] separates the tokens is immaterial, and its string
        literal is taken to be written as by Debug. *)
  Fixpoint stmt_text (s : stmt) : str :=
    let code l := concat (map stmt_text l) in
    match s with
    | SWriteStr s => lit "writer.write_str(" ++ debug_str s ++ lit ")?;" ++ NL
    | SWriteFmt f args => lit "::std::write!(" ++ NL ++ lit "writer," ++ NL ++ debug_str f ++ lit "," ++ NL ++ args_text args ++ NL ++ lit ")?;" ++ NL
    | SDeclare p => lit "let " ++ target_text true p ++ lit ";" ++ NL
    | SLet p e => lit "let " ++ target_text true p ++ lit " = " ++ show e ++ lit ";" ++ NL
    | SAssign p e => target_text true p ++ lit " = " ++ show e ++ lit ";" ++ NL
    | SLetTuple names values => lit "let (" ++ join_with (lit ", ") names ++ lit ") = (" ++
                                join_with (lit ", ") (map (fun e => lit "(" ++ show e ++ lit ")") values) ++ lit ");" ++ NL
    | SLetStr x s => lit "let " ++ x ++ lit " = " ++ debug_str s ++ lit ";" ++ NL
    | SLetFmt x f args => lit "let " ++ x ++ lit " = format!(" ++ debug_str f ++ lit ", " ++ args_text args ++ lit ");" ++ NL
    | SIf branches =>
        (fix go (first : bool) (l : list (rtest * list stmt)) : str :=
           match l with [] => lit "}" ++ NL | (t, body) :: l' => test_text first t ++ code body ++ go false l' end) true branches
    | SMatch e arms =>
        lit "match &" ++ show e ++ lit " {" ++ NL ++
        concat (map (fun a => match a with (p, body) => target_text true p ++ lit " => {" ++ NL ++ code body ++ lit "}" ++ NL end) arms) ++
        lit "}" ++ NL
    | SLoop has_else it how flt var body els tail =>
        lit "{" ++ NL ++ (if has_else then lit "let mut _did_loop = false;" ++ NL else []) ++
        lit "let _iter = " ++ iter_text how it ++ lit ";" ++ NL ++
        match flt with
        | Some (p, c) => lit "let _iter = _iter.filter(|" ++ target_text true p ++ lit "| -> bool {" ++ show c ++ lit "});" ++ NL
        | None => []
        end ++
        lit "for (" ++ target_text true var ++ lit ", _loop_item) in " ++ CRATE ++ lit "::helpers::TemplateLoop::new(_iter) {" ++ NL ++
        (if has_else then lit "_did_loop = true;" ++ NL else []) ++ code body ++ lit "}" ++ NL ++
        (if has_else then lit "if !_did_loop {" ++ NL ++ code els ++ lit "}" ++ NL else code els) ++ code tail ++ lit "}" ++ NL
    | SBlock b => lit "{" ++ NL ++ code b ++ lit "}" ++ NL
    | SBreak => lit "break;" ++ NL
    | SContinue => lit "continue;" ++ NL
    | SIncludeBytes p => lit "include_bytes ! (" ++ debug_str p ++ lit ") ;" ++ NL
    end.
  Definition code_text (code : list stmt) : str := concat (map stmt_text code).

  (** ** The whole output: [build], generator.rs:67-84.
      [fr_impl], [fr_name], [fr_where]: [impl] and the generics of the struct, its name, and its generics and where clause
      (write_header, generator.rs:217-246); [fr_impl_rocket]: [impl] and the generics of the struct with ['askama1] added
      (generator.rs:189-190, 223-229); [fr_files]: the files the code depends on (generator.rs:93-110);
      [fr_actix] to [fr_warp]: which features for web frameworks are switched on (generator.rs:73-80) *)
  Record frame := { fr_impl : str; fr_impl_rocket : str; fr_name : str; fr_where : str; fr_files : list str; fr_extension : option str; fr_mime : str;
                    fr_actix : bool; fr_axum : bool; fr_rocket : bool; fr_warp : bool }.
  Variable fr : frame.
  (** generator.rs:217-246; [impl]: the text before the target *)
  Definition header_text_for (impl : str) (target : str) : str :=
    impl ++ lit " " ++ target ++ lit " for " ++ fr_name fr ++ fr_where fr ++ lit " {" ++ NL.
  (** generator.rs:231-233: without parameters of its own *)
  Definition header_text (target : str) : str := header_text_for (fr_impl fr) target.
  (** generator.rs:86-137 *)
  Definition impl_template_text (code : list stmt) (size : N) : str :=
    header_text (CRATE ++ lit "::Template") ++
    lit "fn render_into(&self, writer: &mut (impl ::std::fmt::Write + ?Sized)) -> " ++ CRATE ++ lit "::Result<()> {" ++ NL ++
    code_text (map SIncludeBytes (fr_files fr)) ++ code_text code ++
    CRATE ++ lit "::Result::Ok(())" ++ NL ++ lit "}" ++ NL ++
    lit "const EXTENSION: ::std::option::Option<&'static ::std::primitive::str> = " ++ NL ++
    match fr_extension fr with Some x => lit "Some(" ++ debug_str x ++ lit ")" | None => lit "None" end ++ NL ++ lit ";" ++ NL ++
    lit "const SIZE_HINT: ::std::primitive::usize = " ++ NL ++ uint_str (N.to_uint size) ++ NL ++ lit ";" ++ NL ++
    lit "const MIME_TYPE: &'static ::std::primitive::str = " ++ NL ++ debug_str (fr_mime fr) ++ NL ++ lit ";" ++ NL ++ lit "}" ++ NL.
  (** generator.rs:139-149 *)
  Definition impl_display_text : str :=
    header_text (lit "::std::fmt::Display") ++ lit "#[inline]" ++ NL ++
    lit "fn fmt(&self, f: &mut ::std::fmt::Formatter) -> ::std::fmt::Result {" ++ NL ++
    CRATE ++ lit "::Template::render_into(self, f).map_err(|_| ::std::fmt::Error {})" ++ NL ++ lit "}" ++ NL ++ lit "}" ++ NL.
  (** generator.rs:151-165 *)
  Definition impl_actix_text : str :=
    header_text (lit "::askama_actix::actix_web::Responder") ++ lit "type Body = ::askama_actix::actix_web::body::BoxBody;" ++ NL ++ lit "#[inline]" ++ NL ++
    lit "fn respond_to(self, _req: &::askama_actix::actix_web::HttpRequest) -> ::askama_actix::actix_web::HttpResponse<Self::Body> {" ++ NL ++
    lit "::askama_actix::into_response(&self)" ++ NL ++ lit "}" ++ NL ++ lit "}" ++ NL.
  (** generator.rs:167-183 *)
  Definition impl_axum_text : str :=
    header_text (lit "::askama_axum::axum_core::response::IntoResponse") ++ lit "#[inline]" ++ NL ++
    lit "fn into_response(self)-> ::askama_axum::axum_core::response::Response {" ++ NL ++
    lit "::askama_axum::into_response(&self)" ++ NL ++ lit "}" ++ NL ++ lit "}" ++ NL.
  (** generator.rs:185-205 *)
  Definition impl_rocket_text : str :=
    header_text_for (fr_impl_rocket fr) (lit "::askama_rocket::rocket::response::Responder<'askama1, 'static>") ++ lit "#[inline]" ++ NL ++
    lit "fn respond_to(self, _: &'askama1 ::askama_rocket::rocket::request::Request<'_>) -> ::askama_rocket::rocket::response::Result<'static> {" ++ NL ++
    lit "::askama_rocket::respond(&self)" ++ NL ++ lit "}" ++ NL ++ lit "}" ++ NL.
  (** generator.rs:207-215 *)
  Definition impl_warp_text : str :=
    header_text (lit "::askama_warp::warp::reply::Reply") ++ lit "#[inline]" ++ NL ++
    lit "fn into_response(self) -> ::askama_warp::warp::reply::Response {" ++ NL ++
    lit "::askama_warp::into_response(&self)" ++ NL ++ lit "}" ++ NL ++ lit "}" ++ NL.
  (** A part that is there only with a feature *)
  Definition with_feature (on : bool) (text : str) : str := if on then text else [].
  (** generator.rs:67-84 *)
  Definition source_text (code : list stmt) (size : N) : str :=
    impl_template_text code size ++ impl_display_text ++ with_feature (fr_actix fr) impl_actix_text ++ with_feature (fr_axum fr) impl_axum_text ++
    with_feature (fr_rocket fr) impl_rocket_text ++ with_feature (fr_warp fr) impl_warp_text.
End Text.
