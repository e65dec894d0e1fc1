(** * C14: loop variables. *)
From Verif Require Import Base Loop.

(** C14.  The [k]-th item of the loop is the [k]-th item of the iterator, with exact loop variables; for every iterator,
    infinite ones included. *)
Theorem C14_loop_item : forall St A (next : St -> option A * St) s k,
  loop_at St A next (tl_new St A s) k =
    match item_at St A next s k with
    | None => None
    | Some a => Some (a, {| index := k; first := Nat.eqb k 0;
                            last := match item_at St A next s (S k) with None => true | Some _ => false end |})
    end.
Proof. exact loop_at_correct. Qed.
Print Assumptions C14_loop_item.

(** A finite iterator delivers every item once, in order. *)
Theorem C14_loop_all : forall St A (next : St -> option A * St) s l, yields St A next s l ->
  run_loop St A next (S (length l)) (tl_new St A s) = Some (annotate A 0 l).
Proof. exact run_loop_correct. Qed.
Print Assumptions C14_loop_all.

(** The attributes a template sees. *)
Theorem C14_loop_attrs : forall l,
  loop_attr (lit "index") l = Some (VNum (index l + 1)) /\ loop_attr (lit "index0") l = Some (VNum (index l)) /\
  loop_attr (lit "first") l = Some (VBool (first l)) /\ loop_attr (lit "last") l = Some (VBool (last l)).
Proof. exact (fun l => conj eq_refl (conj eq_refl (conj eq_refl eq_refl))). Qed.
Print Assumptions C14_loop_attrs.

Definition list_next (s : list N) : option N * list N := match s with [] => (None, []) | a :: s' => (Some a, s') end.
Example C14_example :
  yields _ _ list_next (lit "ab") (lit "ab") /\
  option_map (map (fun x => (fst x, index (snd x), first (snd x), last (snd x)))) (run_loop _ _ list_next 3 (tl_new _ N (lit "ab")))
  = Some [(97%N, 0, true, false); (98%N, 1, false, true)].
Proof. split; [repeat econstructor|vm_compute; reflexivity]. Qed.
