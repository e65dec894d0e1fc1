(** * Model of identifiers and scopes in askama_derive/src/generator.rs (normalize_identifier, MapChain, median). *)
From Verif Require Import Base.
Local Open Scope N_scope.

(** ** normalize_identifier (generator.rs:2197-2300) *)
Definition MAX_KW_LEN : nat := 8.
(** The tables KW0..KW8, generator.rs:2210-2262; each entry is r# and the keyword, padded with underscores to 10. *)
Definition KWS : list (list str) :=
  [ [];
    [];
    [lit "r#as______"; lit "r#do______"; lit "r#fn______"; lit "r#if______"; lit "r#in______"];
    [lit "r#box_____"; lit "r#dyn_____"; lit "r#for_____"; lit "r#let_____"; lit "r#mod_____"; lit "r#mut_____";
     lit "r#pub_____"; lit "r#ref_____"; lit "r#try_____"; lit "r#use_____"];
    [lit "r#else____"; lit "r#enum____"; lit "r#impl____"; lit "r#move____"; lit "r#priv____"; lit "r#true____"; lit "r#type____"];
    [lit "r#async___"; lit "r#await___"; lit "r#break___"; lit "r#const___"; lit "r#crate___"; lit "r#false___";
     lit "r#final___"; lit "r#macro___"; lit "r#match___"; lit "r#trait___"; lit "r#where___"; lit "r#while___"; lit "r#yield___"];
    [lit "r#become__"; lit "r#extern__"; lit "r#return__"; lit "r#static__"; lit "r#struct__"; lit "r#typeof__"; lit "r#unsafe__"];
    [lit "r#unsized_"; lit "r#virtual_"];
    [lit "r#abstract"; lit "r#continue"; lit "r#override"] ].

(** generator.rs:2280-2299.  Bytes.  [KWS[ident.len()]] is in bounds because of the length test; indexing is modelled
    with an empty default, which the test makes unreachable. *)
Definition normalize_identifier (ident : str) : str :=
  if Nat.ltb MAX_KW_LEN (length ident) then ident
  else
    let kws := nth (length ident) KWS [] in
    let padded := ident ++ repeat 95 (MAX_KW_LEN - length ident) in
    match find (fun probe => str_eqb padded (skipn 2 probe)) kws with
    | Some replacement => firstn (length ident + 2) replacement
    | None => ident
    end.

(** ** LocalMeta and MapChain (generator.rs:1894-1985) *)
Record local_meta := { m_refs : option str; m_init : bool }.
Definition initialized : local_meta := {| m_refs := None; m_init := true |}.      (* LocalMeta::initialized, 1901 *)
Definition with_ref (r : str) : local_meta := {| m_refs := Some r; m_init := true |}.   (* LocalMeta::with_ref, 1908 *)
Definition uninit : local_meta := {| m_refs := None; m_init := false |}.          (* LocalMeta::default, 1894 *)

(** One scope is a [HashMap]: an association list whose first entry for a key counts.  [scopes] has the innermost scope
    first (the [Vec] has it last). *)
Definition scope := list (str * local_meta).
Fixpoint scope_get (k : str) (s : scope) : option local_meta :=
  match s with [] => None | (k', v) :: s' => if str_eqb k k' then Some v else scope_get k s' end.
Inductive mapchain := MapChain (parent : option mapchain) (scopes : list scope).
Definition scopes (m : mapchain) : list scope := let (_, s) := m in s.
Fixpoint find_map (k : str) (ss : list scope) : option local_meta :=
  match ss with [] => None | s :: ss' => match scope_get k s with Some v => Some v | None => find_map k ss' end end.
(** get, generator.rs:1940-1945 *)
Fixpoint mc_get (m : mapchain) (k : str) : option local_meta :=
  match m with
  | MapChain p ss => match find_map k ss with
                     | Some v => Some v
                     | None => match p with Some m' => mc_get m' k | None => None end
                     end
  end.
(** Default::default and with_parent, generator.rs:1927-1934, 1987-1994 *)
Definition mc_empty : mapchain := MapChain None [[]].
Definition mc_with_parent (p : mapchain) : mapchain := MapChain (Some p) [[]].
(** insert, 1951-1959: panics if there is no scope *)
Definition mc_insert (m : mapchain) (k : str) (v : local_meta) : res mapchain :=
  match m with MapChain _ [] => Panic | MapChain p (s :: ss) => Ok (MapChain p (((k, v) :: s) :: ss)) end.
(** push, 1968-1970 *)
Definition mc_push (m : mapchain) : mapchain := match m with MapChain p ss => MapChain p ([] :: ss) end.
(** pop, 1972-1975, with its assertion *)
Definition mc_pop (m : mapchain) : res mapchain :=
  match m with MapChain _ [] | MapChain _ [_] => Panic | MapChain p (_ :: ss) => Ok (MapChain p ss) end.
(** is_current_empty, 1947-1949 *)
Definition mc_is_current_empty (m : mapchain) : bool := match m with MapChain _ ([] :: _) => true | _ => false end.
(** resolve, 1979-1985 *)
Definition mc_resolve (m : mapchain) (name : str) : option str :=
  let name := normalize_identifier name in
  match mc_get m name with
  | Some meta => Some (match m_refs meta with Some e => e | None => name end)
  | None => None
  end.
(** resolve_or_self, 1987-1990 *)
Definition mc_resolve_or_self (m : mapchain) (name : str) : str :=
  let name := normalize_identifier name in
  match mc_resolve m name with Some s => s | None => lit "self." ++ name end.
(** visit_var, 1656-1664 *)
Definition visit_var (m : mapchain) (s : str) : str :=
  if str_eqb s (lit "self") then s else normalize_identifier (mc_resolve_or_self m s).

(** ** median (generator.rs:2074-2082).  [usize] arithmetic is unbounded; the slice indexing and the subtraction can
    panic. *)
Fixpoint insert_sorted (x : N) (l : list N) : list N :=
  match l with [] => [x] | y :: l' => if x <=? y then x :: l else y :: insert_sorted x l' end.
Definition sort_sizes (l : list N) : list N := fold_right insert_sorted [] l.
Definition median (sizes : list N) : res N :=
  let l := sort_sizes sizes in
  let n := length l in
  if Nat.eqb (Nat.modulo n 2) 1 then
    match nth_error l (Nat.div n 2) with Some x => Ok x | None => Panic end
  else match Nat.div n 2 with
       | O => Panic                                     (* 0 - 1 *)
       | S i => match nth_error l i, nth_error l (S i) with
                | Some a, Some b => Ok ((a + b) / 2)
                | _, _ => Panic
                end
       end.
