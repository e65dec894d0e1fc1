(** * C38: variable resolution; C51 (first half): the size hint's median. *)
From Verif Require Import Base Ident IdentFacts.
Local Open Scope N_scope.

(** C38.  For every history of scope operations since the chain was created, a name refers to the last binding made in a
    scope that is still open, else to a binding of the parent chain; a name without any binding is a field of the struct.
    [rust_name] is the raw identifier if the name is a Rust keyword. *)
Theorem C38_innermost_binding : forall p0 ops m k, run ops (MapChain p0 [[]]) = Ok m ->
  mc_get m k = visible (rev ops) 0 k (match p0 with Some p => mc_get p k | None => None end).
Proof. exact get_visible. Qed.
Print Assumptions C38_innermost_binding.
Theorem C38_pop_panics_iff_unbalanced : forall p0 ops, (exists m, run ops (MapChain p0 [[]]) = Ok m) <-> depth_ok ops 0 = true.
Proof. exact run_depth. Qed.
Print Assumptions C38_pop_panics_iff_unbalanced.
Theorem C38_variable_text : forall m n, visit_var m n =
  if str_eqb n (lit "self") then lit "self"
  else match mc_get m (rust_name n) with
       | Some meta => match m_refs meta with Some e => normalize_identifier e | None => rust_name n end
       | None => lit "self." ++ rust_name n
       end.
Proof. exact visit_var_spec. Qed.
Print Assumptions C38_variable_text.
Theorem C38_keywords_raw : forall n, normalize_identifier n = rust_name n.
Proof. exact normalize_rust_name. Qed.
Print Assumptions C38_keywords_raw.
Theorem C38_names_stay_distinct : forall a b, no_hash a -> no_hash b -> normalize_identifier a = normalize_identifier b -> a = b.
Proof. exact normalize_inj. Qed.
Print Assumptions C38_names_stay_distinct.
Example C38_example :
  match run [Insert (lit "x") initialized; Push; Insert (lit "x") (with_ref (lit "self.a")); Push; Insert (lit "y") initialized; Pop] mc_empty with
  | Ok m => visit_var m (lit "x") = lit "self.a" /\ visit_var m (lit "y") = lit "self.y" /\ visit_var m (lit "type") = lit "self.r#type"
            /\ match mc_pop m with Ok m' => visit_var m' (lit "x") = lit "x" | _ => False end
  | _ => False
  end /\ normalize_identifier (lit "type_") = lit "type_" /\ normalize_identifier (lit "abstract_") = lit "abstract_".
Proof. vm_compute. auto. Qed.
(** Rust does not allow [crate] as a raw identifier (nor self, Self, super and _), so a field of that name, if it could be
    declared, or a template variable of that name yields code that does not compile. *)
Definition no_raw_identifier : list str := [lit "crate"; lit "self"; lit "Self"; lit "super"; lit "_"].
Theorem C38_raw_identifier_legal_refuted : exists n, In n no_raw_identifier /\ normalize_identifier n = lit "r#" ++ n.
Proof. exists (lit "crate"). split; [left; reflexivity|vm_compute; reflexivity]. Qed.
Print Assumptions C38_raw_identifier_legal_refuted.
(** All the others are legal. *)
Theorem C38_raw_identifier_legal_partial : forall n, n <> lit "crate" -> normalize_identifier n <> n -> ~ In n no_raw_identifier.
Proof.
  exact (fun n Hc Hn Hin => match Hin with
    | or_introl E => Hc (eq_sym E)
    | or_intror (or_introl E) => Hn (eq_ind _ (fun n => normalize_identifier n = n) eq_refl _ E)
    | or_intror (or_intror (or_introl E)) => Hn (eq_ind _ (fun n => normalize_identifier n = n) eq_refl _ E)
    | or_intror (or_intror (or_intror (or_introl E))) => Hn (eq_ind _ (fun n => normalize_identifier n = n) eq_refl _ E)
    | or_intror (or_intror (or_intror (or_intror (or_introl E)))) => Hn (eq_ind _ (fun n => normalize_identifier n = n) eq_refl _ E)
    | or_intror (or_intror (or_intror (or_intror (or_intror F)))) => match F with end
    end).
Qed.
Print Assumptions C38_raw_identifier_legal_partial.

(** C51, the median of the branch sizes: defined exactly for non-empty lists, and between the smallest and the largest. *)
Theorem C51_median_defined : forall l, l <> [] ->
  exists m, median l = Ok m /\ (exists x, In x l /\ x <= m) /\ (exists y, In y l /\ m <= y).
Proof. exact median_defined. Qed.
Print Assumptions C51_median_defined.
Theorem C51_median_of_nothing_panics : median [] = Panic.
Proof. exact median_nil. Qed.
Print Assumptions C51_median_of_nothing_panics.
Example C51_example : median [5; 1; 9] = Ok 5 /\ median [4; 1; 9; 2] = Ok 3.
Proof. vm_compute. auto. Qed.
