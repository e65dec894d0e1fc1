From Verif Require Import Base Ident.
From Coq Require Import ZArith ZifyBool ZifyNat ZifyN Permutation Sorted.
Ltac Zify.zify_post_hook ::= Z.div_mod_to_equations.
Local Open Scope N_scope.

(** The keywords of Rust (strict and reserved) that the template language does not use itself. *)
Definition rust_keywords : list str :=
  [lit "as"; lit "async"; lit "await"; lit "break"; lit "const"; lit "continue"; lit "crate"; lit "dyn";
   lit "else"; lit "enum"; lit "extern"; lit "false"; lit "fn"; lit "for"; lit "if"; lit "impl"; lit "in";
   lit "let"; lit "match"; lit "mod"; lit "move"; lit "mut"; lit "pub"; lit "ref"; lit "return"; lit "static";
   lit "struct"; lit "trait"; lit "true"; lit "type"; lit "unsafe"; lit "use"; lit "where"; lit "while";
   lit "abstract"; lit "become"; lit "box"; lit "do"; lit "final"; lit "macro"; lit "override"; lit "priv";
   lit "try"; lit "typeof"; lit "unsized"; lit "virtual"; lit "yield"].

Lemma str_eqb_sym a b : str_eqb a b = str_eqb b a.
Proof.
  destruct (str_eqb a b) eqn:E.
  - apply str_eqb_eq in E. subst. symmetry. apply str_eqb_refl.
  - destruct (str_eqb b a) eqn:E2; [|reflexivity]. apply str_eqb_eq in E2. subst. rewrite str_eqb_refl in E. discriminate.
Qed.

(** Every table entry in bucket [n] is r#, a keyword of length [n], and padding. *)
Definition entry_ok (n : nat) (probe : str) : bool :=
  mem_str (firstn n (skipn 2 probe)) rust_keywords && str_eqb (firstn 2 probe) (lit "r#") && Nat.eqb (length probe) 10.
Lemma tables_ok : forallb (fun n => forallb (entry_ok n) (nth n KWS [])) (seq 0 9) = true.
Proof. vm_compute. reflexivity. Qed.
Lemma keywords_ok : forallb (fun k => str_eqb (normalize_identifier k) (lit "r#" ++ k)) rust_keywords = true.
Proof. vm_compute. reflexivity. Qed.

Lemma normalize_keyword k : In k rust_keywords -> normalize_identifier k = lit "r#" ++ k.
Proof. intros H. pose proof keywords_ok as A. rewrite forallb_forall in A. apply str_eqb_eq. apply A. exact H. Qed.

Lemma normalize_other k : ~ In k rust_keywords -> normalize_identifier k = k.
Proof.
  intros H. unfold normalize_identifier. destruct (Nat.ltb_spec MAX_KW_LEN (length k)) as [|Hl]; [reflexivity|].
  unfold MAX_KW_LEN in *. cbv zeta.
  destruct (find _ _) as [probe|] eqn:E; [|reflexivity]. exfalso. apply H.
  apply find_some in E as [Hin He]. apply str_eqb_eq in He.
  pose proof tables_ok as A. rewrite forallb_forall in A. specialize (A (length k)).
  rewrite forallb_forall in A. specialize (A ltac:(apply in_seq; lia) probe Hin). unfold entry_ok in A.
  apply andb_true_iff in A as [A _]. apply andb_true_iff in A as [A _]. apply mem_str_In in A.
  rewrite <- He, firstn_app, Nat.sub_diag, firstn_all, firstn_O, app_nil_r in A. exact A.
Qed.

Lemma in_rust_keywords_dec k : {In k rust_keywords} + {~ In k rust_keywords}.
Proof. apply in_dec. exact str_dec. Qed.

(** Template identifiers have no '#'. *)
Definition no_hash (s : str) : Prop := ~ In 35 s.
Lemma keywords_no_hash k : In k rust_keywords -> no_hash k.
Proof.
  intros H. assert (A : forallb (fun k => negb (mem_chr 35 k)) rust_keywords = true) by (vm_compute; reflexivity).
  rewrite forallb_forall in A. specialize (A _ H). intros Hin. apply mem_chr_In in Hin. rewrite Hin in A. discriminate.
Qed.
Lemma normalize_inj a b : no_hash a -> no_hash b -> normalize_identifier a = normalize_identifier b -> a = b.
Proof.
  intros Ha Hb H. destruct (in_rust_keywords_dec a) as [Ka|Ka], (in_rust_keywords_dec b) as [Kb|Kb].
  - rewrite !normalize_keyword in H by assumption. exact (app_inv_head _ _ _ H).
  - rewrite normalize_keyword, (normalize_other b) in H by assumption. exfalso. apply Hb. rewrite <- H. right. left. reflexivity.
  - rewrite normalize_other, (normalize_keyword b) in H by assumption. exfalso. apply Ha. rewrite H. right. left. reflexivity.
  - rewrite !normalize_other in H by assumption. exact H.
Qed.
Lemma normalize_idem a : normalize_identifier (normalize_identifier a) = normalize_identifier a.
Proof.
  destruct (in_rust_keywords_dec a) as [Ka|Ka].
  - rewrite (normalize_keyword a Ka). apply normalize_other. intros H. apply keywords_no_hash in H. apply H. right. left. reflexivity.
  - rewrite (normalize_other a Ka). apply normalize_other. exact Ka.
Qed.

(** ** Scopes *)
Inductive op := Push | Pop | Insert (k : str) (v : local_meta).
Definition apply_op (m : mapchain) (o : op) : res mapchain :=
  match o with Push => Ok (mc_push m) | Pop => mc_pop m | Insert k v => mc_insert m k v end.
Fixpoint run (ops : list op) (m : mapchain) : res mapchain :=
  match ops with [] => Ok m | o :: ops' => let! m := apply_op m o in run ops' m end.

(** Specification: walk the history backwards; [closed] counts the scopes that were closed later and whose opening has not
    been passed yet.  The first insertion met in a scope that is still open is the visible binding. *)
Fixpoint visible (history : list op) (closed : nat) (k : str) (outer : option local_meta) : option local_meta :=
  match history with
  | [] => outer
  | Pop :: h => visible h (S closed) k outer
  | Push :: h => visible h (pred closed) k outer
  | Insert k' v :: h => if Nat.eqb closed 0 && str_eqb k k' then Some v else visible h closed k outer
  end.
Fixpoint depth_ok (ops : list op) (depth : nat) : bool :=
  match ops with
  | [] => true
  | Push :: o => depth_ok o (S depth)
  | Pop :: o => match depth with O => false | S d => depth_ok o d end
  | Insert _ _ :: o => depth_ok o depth
  end.

Definition drop_scopes (m : mapchain) (n : nat) : mapchain := match m with MapChain p ss => MapChain p (skipn n ss) end.
Definition parent_get (m : mapchain) (k : str) : option local_meta :=
  match m with MapChain (Some p) _ => mc_get p k | _ => None end.

Lemma run_app a b m : run (a ++ b) m = let! m := run a m in run b m.
Proof.
  revert m; induction a as [|o a IH]; intros m; cbn; [reflexivity|]. destruct (apply_op m o) as [m'| |]; cbn; [apply IH|reflexivity|reflexivity].
Qed.

Lemma run_visible p0 k : forall ops m, run ops (MapChain p0 [[]]) = Ok m ->
  (forall n, (n < length (scopes m))%nat -> mc_get (drop_scopes m n) k = visible (rev ops) n k (match p0 with Some p => mc_get p k | None => None end))
  /\ (length (scopes m) > 0)%nat /\ (match m with MapChain p _ => p = p0 end).
Proof.
  intros ops. induction ops as [|o ops IH] using rev_ind; intros m H.
  - cbn in H. injection H as <-. cbn. split; [|split; [lia|reflexivity]]. intros n Hn. destruct n; [|lia]. reflexivity.
  - rewrite run_app in H. destruct (run ops _) as [m1| |] eqn:E; try discriminate. cbn in H.
    destruct (IH m1 eq_refl) as (Hget & Hlen & Hp). rewrite rev_app_distr. cbn [rev app].
    destruct m1 as [p ss]. subst p. destruct o as [| |k' v]; cbn in H.
    + injection H as <-. cbn in *. split; [|split; [lia|reflexivity]]. intros n Hn.
      destruct n as [|n]; cbn [Init.Nat.pred skipn].
      * rewrite <- Hget by lia. cbn. reflexivity.
      * rewrite <- Hget by lia. cbn. reflexivity.
    + destruct ss as [|s ss]; [discriminate|]. destruct ss as [|s' ss]; [discriminate|]. injection H as <-. cbn in *.
      split; [|split; [lia|reflexivity]]. intros n Hn. rewrite <- (Hget (S n)) by lia. reflexivity.
    + destruct ss as [|s ss]; [discriminate|]. cbn in H. injection H as <-. cbn in Hget, Hlen |- *. split; [|split; [lia|reflexivity]].
      intros n Hn. destruct n as [|n]; cbn [Nat.eqb andb].
      * cbn. destruct (str_eqb k k') eqn:Ek; [reflexivity|]. rewrite <- (Hget 0%nat) by lia. reflexivity.
      * cbn. rewrite <- (Hget (S n)) by lia. reflexivity.
Qed.

Lemma run_depth p0 : forall ops, (exists m, run ops (MapChain p0 [[]]) = Ok m) <-> depth_ok ops 0 = true.
Proof.
  assert (G : forall ops ss d, length ss = S d -> (exists m, run ops (MapChain p0 ss) = Ok m) <-> depth_ok ops d = true).
  { induction ops as [|o ops IH]; intros ss d Hd; cbn [run depth_ok].
    - split; [reflexivity|]. intros _. eauto.
    - destruct o as [| |k v]; cbn.
      + apply IH. cbn. lia.
      + destruct ss as [|s [|s' ss]]; [discriminate| |].
        * cbn in Hd. destruct d; [|lia]. cbn. split; [intros [m Hm]; discriminate|discriminate].
        * cbn in Hd. destruct d; [lia|]. cbn. apply IH. cbn. lia.
      + destruct ss as [|s ss]; [discriminate|]. cbn. apply IH. cbn in *. lia. }
  intros ops. apply G. reflexivity.
Qed.

Lemma get_visible p0 ops m k : run ops (MapChain p0 [[]]) = Ok m ->
  mc_get m k = visible (rev ops) 0 k (match p0 with Some p => mc_get p k | None => None end).
Proof. intros H. destruct (run_visible p0 k ops m H) as (Hg & Hl & _). rewrite <- Hg by lia. destruct m. reflexivity. Qed.

(** What a name becomes. *)
Definition rust_name (n : str) : str := if mem_str n rust_keywords then lit "r#" ++ n else n.
Lemma normalize_rust_name n : normalize_identifier n = rust_name n.
Proof.
  unfold rust_name. destruct (mem_str n rust_keywords) eqn:E.
  - apply normalize_keyword. apply mem_str_In. exact E.
  - apply normalize_other. intros H. apply mem_str_In in H. congruence.
Qed.
Lemma self_dot_not_kw s : normalize_identifier (lit "self." ++ s) = lit "self." ++ s.
Proof.
  apply normalize_other. intros H.
  assert (A : forallb (fun k => negb (mem_chr 46 k)) rust_keywords = true) by (vm_compute; reflexivity).
  rewrite forallb_forall in A. specialize (A _ H). cbn in A. discriminate.
Qed.
Lemma visit_var_spec m n : visit_var m n =
  if str_eqb n (lit "self") then lit "self"
  else match mc_get m (rust_name n) with
       | Some meta => match m_refs meta with Some e => normalize_identifier e | None => rust_name n end
       | None => lit "self." ++ rust_name n
       end.
Proof.
  unfold visit_var. destruct (str_eqb n (lit "self")) eqn:E; [apply str_eqb_eq; exact E|].
  unfold mc_resolve_or_self, mc_resolve. rewrite normalize_idem, <- normalize_rust_name.
  destruct (mc_get m (normalize_identifier n)) as [meta|].
  - destruct (m_refs meta); [reflexivity|]. apply normalize_idem.
  - apply self_dot_not_kw.
Qed.

(** ** median *)
Lemma insert_perm x l : Permutation (x :: l) (insert_sorted x l).
Proof.
  induction l as [|y l IH]; cbn; [reflexivity|]. destruct (x <=? y); [reflexivity|].
  rewrite perm_swap. constructor. exact IH.
Qed.
Lemma sort_perm l : Permutation l (sort_sizes l).
Proof. induction l as [|x l IH]; cbn; [reflexivity|]. rewrite <- insert_perm. constructor. exact IH. Qed.
Lemma sort_length l : length (sort_sizes l) = length l.
Proof. symmetry. apply Permutation_length. apply sort_perm. Qed.
Lemma median_defined l : l <> [] -> exists m, median l = Ok m /\ (exists x, In x l /\ x <= m) /\ (exists y, In y l /\ m <= y).
Proof.
  intros H. unfold median. rewrite sort_length. cbv zeta.
  assert (Hl : (0 < length l)%nat) by (destruct l; [congruence|cbn; lia]).
  assert (Hin : forall x, In x (sort_sizes l) -> In x l).
  { intros x Hx. eapply Permutation_in; [symmetry; apply sort_perm|exact Hx]. }
  destruct (Nat.eqb_spec (length l mod 2) 1) as [E|E].
  - destruct (nth_error (sort_sizes l) (length l / 2)) as [x|] eqn:Ex.
    + apply nth_error_In, Hin in Ex. exists x. split; [reflexivity|]. split; exists x; split; auto; lia.
    + apply nth_error_None in Ex. rewrite sort_length in Ex. lia.
  - destruct (length l / 2)%nat as [|i] eqn:Ei; [lia|].
    destruct (nth_error (sort_sizes l) i) as [a|] eqn:Ea; [|apply nth_error_None in Ea; rewrite sort_length in Ea; lia].
    destruct (nth_error (sort_sizes l) (S i)) as [b|] eqn:Eb; [|apply nth_error_None in Eb; rewrite sort_length in Eb; lia].
    apply nth_error_In, Hin in Ea. apply nth_error_In, Hin in Eb.
    exists ((a + b) / 2). split; [reflexivity|].
    destruct (N.le_ge_cases a b) as [L|L].
    + split; [exists a|exists b]; split; auto; lia.
    + split; [exists b|exists a]; split; auto; lia.
Qed.
Lemma median_nil : median [] = Panic.
Proof. reflexivity. Qed.
