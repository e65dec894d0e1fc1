(** The list of the code generator and the functions of the runtime crate have the same names. *)
From Verif Require Import Base GenExpr Shipped.

Lemma shipped_in x : In x BUILT_IN_FILTERS <-> In x shipped.
Proof.
  split; apply (proj1 (Forall_forall (fun y => In y _) _)); apply Forall_forall; intros y Hy; apply mem_str_In;
    revert y Hy; apply Forall_forall; repeat constructor.
Qed.
Lemma shipped_mem x : mem_str x BUILT_IN_FILTERS = mem_str x shipped.
Proof.
  pose proof (shipped_in x) as H. rewrite <- !mem_str_In in H.
  destruct (mem_str x BUILT_IN_FILTERS), (mem_str x shipped); try reflexivity; [symmetry|]; apply H; reflexivity.
Qed.
