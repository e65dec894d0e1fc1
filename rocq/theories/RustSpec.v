(** * Specification: templates whose parts Rust can read.
    What a template takes over into the generated code word for word must be Rust by itself. *)
From Verif Require Import Base Ws Ast LitSpec RustText ParseSpec TreeSpec Ident GenExpr Heritage Gen GenText.
Local Open Scope N_scope.

Section Spec.
  Variables xid_start xid_continue : N -> bool.
  (** Of the characters of a name outside of ASCII, the first may begin a name in Rust, the others may continue one. *)
  Definition rust_chars (x : str) : Prop :=
    match x with
    | [] => True
    | c :: t => (128 <= c -> xid_start c = true) /\ Forall (fun c => 128 <= c -> xid_start c || xid_continue c = true) t
    end.
  (** A name that is written as an identifier: [crate] becomes [r#crate], which is none. *)
  Definition rust_word (x : str) : Prop := rust_chars x /\ x <> lit "crate".
  (** One expression, without its operands *)
  Definition readable (e : expr) : Prop :=
    match e with
    | StrLit s => rust_string s
    | CharLit s => rust_char s
    | Var x | Attr _ x => rust_word x
    | Path p => Forall rust_chars p
    | Filter x _ => rust_chars x
    | RustMacro p args => Forall rust_chars p /\ closed xid_start xid_continue args = true
    | _ => True
    end.
  Inductive readable_target : target -> Prop :=
  | rt_name x : rust_word x -> readable_target (TName x)
  | rt_tuple p l : Forall rust_chars p -> Forall readable_target l -> readable_target (TTuple p l)
  | rt_struct p l : Forall rust_chars p -> Forall (fun x => rust_word (fst x) /\ readable_target (snd x)) l -> readable_target (TStruct p l)
  | rt_or l : Forall readable_target l -> readable_target (TOrChain l)
  | rt_path p : Forall rust_chars p -> readable_target (TPath p)
  | rt_num s : readable_target (TNumLit s)
  | rt_bool s : readable_target (TBoolLit s)
  | rt_str s : rust_string s -> readable_target (TStrLit s)
  | rt_chr s : rust_char s -> readable_target (TCharLit s).
  (** The targets of one node, without the nodes in it *)
  Definition targets_of (n : node) : list target :=
    match n with
    | NLet _ t _ | NLoop _ t _ _ _ _ _ _ => [t]
    | NIf _ cs => concat (map (fun c => match c with Cond _ (Some x) _ => match ct_target x with Some t => [t] | None => [] end | _ => [] end) cs)
    | NMatch _ _ arms _ => map (fun a => match a with When _ t _ => t end) arms
    | _ => []
    end.
  (** Names that belong to the node itself: the parameters of a macro, the filter of a filter block *)
  Definition words_of (n : node) : list str := match n with NMacro _ _ ps _ _ => ps | NFilterBlock _ x _ _ _ => [x] | _ => [] end.
  Definition readable_template (ns : list node) : Prop :=
    forall b n, occurs ns b n ->
      (forall e e', expr_of n e -> sub e' e -> readable e') /\
      (forall t, In t (targets_of n) -> readable_target t) /\ (forall x, In x (words_of n) -> rust_chars x).
  (** What comes from the struct and its attributes and from the configuration *)
  Definition readable_frame (fr : frame) : Prop :=
    closed xid_start xid_continue (fr_impl fr) = true /\ closed xid_start xid_continue (fr_impl_rocket fr) = true /\ closed xid_start xid_continue (fr_name fr ++ fr_where fr) = true.
  Definition readable_escapers (inp : ginput) : Prop :=
    closed xid_start xid_continue (f_escaper inp) = true /\
    forall l esc, In (l, esc) (f_escapers inp) -> closed xid_start xid_continue esc = true.
End Spec.
