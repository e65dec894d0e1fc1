(** * Facts behind Prop_Move.v: what moved code does, and the search for moved templates. *)
From Verif Require Import Base Ws Config Ast ParseNode GenExpr Heritage Gen Sem HeritageSpec HeritageFacts EndFacts TreeSpec MoveSpec MoveGen.
From Verif Require StmtGen GroupGen FlatFacts.
From Coq Require Import Lia.
Local Open Scope N_scope.

(** ** Moved code does the same *)
Section Run.
  Variables (mv : str -> str) (w : world).
  Let P (s : stmt) : Prop := forall en st, exec w (moved_stmt mv s) en st = exec w s en st.
  Lemma exec_list_mv : forall l, Forall P l -> forall en st, exec_list w (exec w) (map (moved_stmt mv) l) en st = exec_list w (exec w) l en st.
  Proof.
    induction 1 as [|s l H _ IH]; intros en st; [reflexivity|]. cbn [map exec_list]. rewrite H. destruct (exec w s en st) as [[[[o en'] st'] fl]| |]; cbn; [|reflexivity..]. destruct fl; rewrite ?IH; reflexivity.
  Qed.
  Lemma exec_block_mv l e en st : Forall P l -> exec_block w (exec w) (map (moved_stmt mv) l) e en st = exec_block w (exec w) l e en st.
  Proof. intros H. unfold exec_block. rewrite exec_list_mv by exact H. reflexivity. Qed.
  Lemma loop_items_ext {T} (f g : N -> bool -> bool -> V w -> T -> out (T * flow)) : (forall i a b v t, f i a b v t = g i a b v t) -> forall l i t, loop_items w f i l t = loop_items w g i l t.
  Proof. intros H. induction l as [|v l IH]; intros i t; [reflexivity|]. cbn [loop_items]. rewrite H. destruct (g _ _ _ _ _) as [[t' fl]| |]; cbn; [|reflexivity..]. destruct fl; rewrite ?IH; reflexivity. Qed.
  Lemma exec_mv : forall s, P s.
  Proof.
    apply StmtGen.stmt_all.
    - intros []; exact I || (intros en st; reflexivity).
    - intros l H en st. cbn [moved_stmt exec]. induction H as [|[t b] l H _ IH]; [reflexivity|]. cbn [map exec_branches fst snd] in *. destruct (test_true w t en st) as [[en'|]| |]; cbn; try reflexivity; [|exact IH].
      apply exec_block_mv, H.
    - intros e l H en st. cbn [moved_stmt exec]. destruct (reval w en st e) as [v| |]; cbn; try reflexivity. induction H as [|[t b] l H _ IH]; [reflexivity|]. cbn [map exec_arms fst snd] in *.
      destruct (pmatch w t v); [|exact IH]. apply exec_block_mv, H.
    - intros h it k f v b e t HB HE HT en st. cbn [moved_stmt exec]. destruct (reval w en st it) as [x| |]; cbn; try reflexivity. destruct (w_iter w x); cbn; try reflexivity.
      destruct (filter_items _ _ _) as [items| |]; cbn; try reflexivity.
      match goal with |- context [loop_items w ?f _ items _] => match goal with |- _ = ?r => match r with context [loop_items w ?g _ items _] => rewrite (loop_items_ext f g) end end end.
      2:{ intros i a b0 v0 t0. destruct (pmatch w v v0) as [bs|]; cbn [of_opt obind]; [|reflexivity]. cbn. rewrite exec_list_mv by exact HB. reflexivity. }
      destruct (loop_items _ _ _ _ _) as [[[[o st'] did] fl]| |]; cbn; try reflexivity. rewrite exec_list_mv by exact HE.
      destruct (if h && negb did then _ else _) as [[[[o1 en1] st1] fl1]| |]; cbn; try reflexivity. rewrite exec_list_mv by exact HT. reflexivity.
    - intros l H en st. cbn [moved_stmt exec]. apply exec_block_mv, H.
  Qed.
  Lemma run_mv code : run w (moved_code mv code) = run w code.
  Proof. unfold run, moved_code. rewrite exec_list_mv; [reflexivity|]. apply Forall_forall. intros s _. apply exec_mv. Qed.
End Run.

(** ** The names in a template *)
Lemma mentions_good (Q : str -> Prop) ns : (forall p, mentions ns p -> Q p) -> Forall (good Q) ns.
Proof.
  intros H. apply Forall_forall. intros n Hn b b' m I p E. apply H. destruct (GroupGen.inside_any _ _ _ _ I false) as [c I']. exists c, m. split; [exists n; auto|exact E].
Qed.

(** ** The search *)
Section Used.
  Variable mv : str -> str.
  Hypothesis inj : forall p q, mv p = mv q -> p = q.
  Variables (Q D S : str -> Prop) (find find' : str -> str -> res str) (load load' : str -> res str) (parse : str -> res (list node)).
  Hypothesis HF : forall p from, Q p -> D from -> find' p (mv from) = moved_path mv (find p from).
  Hypothesis HD : forall p from q, Q p -> D from -> find p from = Ok q -> D q.
  Hypothesis HL : forall p, load' (mv p) = load p.
  Hypothesis HS : forall p src, load p = Ok src -> S src.
  Hypothesis HP : forall src ns, S src -> parse src = Ok ns -> Forall (good Q) ns.
  Definition umv (st : fstate) : fstate :=
    {| u_map := map (fun x => (mv (fst x), snd x)) (u_map st); u_check := map (fun x => (mv (fst x), snd x)) (u_check st); u_graph := map (fun x => (mv (fst x), mv (snd x))) (u_graph st) |}.
  Record fine (st : fstate) : Prop := { fi_check : forall p src, In (p, src) (u_check st) -> D p /\ S src; fi_map : forall p ns, In (p, ns) (u_map st) -> D p /\ Forall (good Q) ns }.
  Lemma add_mv p st : add_to_check load' (mv p) (umv st) = rmap umv (add_to_check load p st).
  Proof.
    unfold add_to_check. cbn [umv u_map]. rewrite (get_keys mv inj (fun x => x)). destruct (get p (u_map st)); cbn [option_map]; [reflexivity|]. rewrite HL. destruct (load p) as [src|m|]; cbn [rbind rmap]; [|reflexivity..].
    unfold umv. cbn [u_map u_check u_graph map fst snd]. rewrite (put_keys mv inj (fun x => x)). reflexivity.
  Qed.
  Lemma add_fine p st st' : D p -> fine st -> add_to_check load p st = Ok st' -> fine st'.
  Proof.
    intros H [F1 F2] E. unfold add_to_check in E. destruct (get p (u_map st)); [injection E as <-; constructor; assumption|]. destruct (load p) as [src|m|] eqn:EL; cbn [rbind] in E; try discriminate E.
    injection E as <-. constructor; cbn [u_check u_map].
    - intros q s [[= <- <-]|K]; [split; [exact H|eapply HS, EL]|apply F1, K].
    - intros q ns K. apply FlatFacts.in_put in K as [K|[-> ->]]; [apply F2, K|split; [exact H|constructor]].
  Qed.
  Definition umv1 (x : fstate * list (list node)) := (umv (fst x), snd x).
  Lemma edges_mv a b g : existsb (edge_eqb (mv a, mv b)) (map (fun x => (mv (fst x), mv (snd x))) g) = existsb (edge_eqb (a, b)) g.
  Proof. induction g as [|[x y] g IH]; [reflexivity|]. cbn [map existsb fst snd]. rewrite IH. unfold edge_eqb. cbn [fst snd]. rewrite !(mv_eqb mv inj). reflexivity. Qed.
  Lemma used_node_mv path top n st : D path -> own Q n -> used_node find' load' (mv path) top n (umv st) = rmap umv1 (used_node find load path top n st).
  Proof.
    intros HDp HO. destruct n; try reflexivity; cbn [used_node]; try (destruct top; [|reflexivity]).
    all: try (rewrite HF by solve [assumption|apply HO; reflexivity]; destruct (find path0 path) as [q|m|]; cbn [moved_path rbind rmap]; [|reflexivity..]).
    - rewrite (mv_eqb mv inj). destruct (str_eqb path q); [reflexivity|]. cbn [umv u_graph]. rewrite edges_mv. destruct (existsb _ (u_graph st)); [reflexivity|].
      replace {| u_map := _; u_check := _; u_graph := _ |} with (umv {| u_map := u_map st; u_check := u_check st; u_graph := u_graph st ++ [(path, q)] |}) at 1 by (unfold umv; cbn [u_map u_check u_graph]; rewrite map_app; reflexivity).
      rewrite add_mv. destruct (add_to_check load q _); reflexivity.
    - rewrite add_mv. destruct (add_to_check load q _); reflexivity.
    - rewrite add_mv. destruct (add_to_check load q _); reflexivity.
  Qed.
  Lemma used_node_fine path top n st st' more : D path -> good Q n -> fine st -> used_node find load path top n st = Ok (st', more) -> fine st' /\ Forall (Forall (good Q)) more.
  Proof.
    intros HDp HO HI E. pose proof (good_own Q _ HO) as HO1.
    assert (KB : forall ns, In ns (bodies n) -> Forall (good Q) ns) by (intros ns; apply (good_bodies Q _ _ HO)).
    destruct n; cbn [used_node] in E; try solve [injection E as <- <-; split; [exact HI|constructor]].
    all: try (destruct top; [|solve [injection E as <- <-; split; [exact HI|constructor]]]).
    all: try solve [injection E as <- <-; split; [exact HI|apply Forall_forall; intros ns Hns; apply KB; exact Hns]].
    all: try solve [injection E as <- <-; split; [exact HI|]; constructor; [|constructor]; apply (good_children Q _ _ HO); intros m Hm; exists false, false; first [eapply ch_macro; exact Hm|eapply ch_filter; exact Hm]].
    all: apply rbind_inv in E as (q & Eq & E); assert (Dq : D q) by (eapply HD; [|exact HDp|exact Eq]; apply HO1; reflexivity).
    - destruct (str_eqb path q); [discriminate E|]. destruct (existsb _ _); [discriminate E|]. apply rbind_inv in E as (s1 & E1 & E). injection E as <- <-. split; [|constructor].
      eapply add_fine; [exact Dq| |exact E1]. destruct HI. constructor; assumption.
    - apply rbind_inv in E as (s1 & E1 & E). injection E as <- <-. split; [|constructor]. eapply add_fine; eassumption.
    - apply rbind_inv in E as (s1 & E1 & E). injection E as <- <-. split; [|constructor]. eapply add_fine; eassumption.
  Qed.
  Lemma used_nodes_mv path top : D path -> forall ns st stack, Forall (good Q) ns -> used_nodes find' load' (mv path) top ns (umv st) stack = rmap umv1 (used_nodes find load path top ns st stack).
  Proof.
    intros HDp. induction ns as [|n ns IH]; intros st stack H; [reflexivity|]. inversion H as [|? ? H1 H2]; subst. cbn [used_nodes]. rewrite used_node_mv by solve [exact HDp|apply good_own, H1].
    destruct (used_node find load path top n st) as [[s1 more]|m|]; cbn [rmap rbind umv1 fst snd]; [apply IH, H2|reflexivity..].
  Qed.
  Lemma used_nodes_fine path top : D path -> forall ns st stack st' stack', Forall (good Q) ns -> fine st -> Forall (Forall (good Q)) stack -> used_nodes find load path top ns st stack = Ok (st', stack') -> fine st' /\ Forall (Forall (good Q)) stack'.
  Proof.
    intros HDp. induction ns as [|n ns IH]; intros st stack st' stack' H HI HK E; [injection E as <- <-; auto|]. inversion H as [|? ? H1 H2]; subst. cbn [used_nodes] in E. apply rbind_inv in E as ([s1 more] & E1 & E).
    destruct (used_node_fine _ _ _ _ _ _ HDp H1 HI E1) as [K1 K2]. eapply IH; [exact H2|exact K1| |exact E]. apply Forall_app. split; [apply Forall_rev, K2|exact HK].
  Qed.
  Lemma used_file_mv path : D path -> forall fuel top stack st, Forall (Forall (good Q)) stack -> fine st -> used_file find' load' fuel (mv path) top stack (umv st) = gmap umv (used_file find load fuel path top stack st).
  Proof.
    intros HDp. induction fuel as [|f IH]; intros top stack st H HI; (destruct stack as [|ns stack]; [reflexivity|]); [reflexivity|]. cbn [used_file]. inversion H as [|? ? H1 H2]; subst. rewrite used_nodes_mv by assumption.
    destruct (used_nodes find load path top ns st stack) as [[s1 st1]|m|] eqn:E; cbn [rmap of_res gbind umv1 fst snd]; [|reflexivity..]. destruct (used_nodes_fine _ _ HDp _ _ _ _ _ H1 HI H2 E) as [K1 K2]. apply IH; assumption.
  Qed.
  Lemma used_file_fine path : D path -> forall fuel top stack st st', Forall (Forall (good Q)) stack -> fine st -> used_file find load fuel path top stack st = GOk st' -> fine st'.
  Proof.
    intros HDp. induction fuel as [|f IH]; intros top stack st st' H HI E; (destruct stack as [|ns stack]; [injection E as <-; exact HI|]); [discriminate E|]. cbn [used_file] in E. inversion H as [|? ? H1 H2]; subst.
    apply gbind_inv in E as ([s1 st1] & E1 & E). apply of_res_inv in E1. destruct (used_nodes_fine _ _ HDp _ _ _ _ _ H1 HI H2 E1) as [K1 K2]. eapply IH; [exact K2|exact K1|exact E].
  Qed.
  Lemma used_loop_mv : forall fuel st, fine st -> used_loop find' load' parse fuel (umv st) = gmap (moved_templates mv) (used_loop find load parse fuel st) /\
    forall l, used_loop find load parse fuel st = GOk l -> forall p ns, In (p, ns) l -> D p /\ Forall (good Q) ns.
  Proof.
    induction fuel as [|f IH]; intros st HI; cbn [used_loop]; cbn [umv u_check]; destruct (u_check st) as [|[path src] check] eqn:EC; cbn [map fst snd].
    1, 3: split; [reflexivity|]; intros l [= <-]; apply HI.
    - split; [reflexivity|discriminate].
    - destruct (parse src) as [ns|m|] eqn:EP; cbn [of_res gbind]; [|split; [reflexivity|discriminate]..].
      destruct (fi_check _ HI path src) as [Dp Ss]; [rewrite EC; left; reflexivity|]. pose proof (HP _ _ Ss EP) as GN.
      assert (HI2 : fine {| u_map := u_map st; u_check := check; u_graph := u_graph st |}).
      { destruct HI as [F1 F2]. constructor; cbn [u_check u_map]; [|exact F2]. intros p s K. apply F1. rewrite EC. right. exact K. }
      assert (HS1 : Forall (Forall (good Q)) [ns]) by (constructor; [exact GN|constructor]).
      pose proof (used_file_mv path Dp (Datatypes.S (nodes_size ns)) true [ns] _ HS1 HI2) as E1. unfold umv in E1 at 1. cbn [u_map u_check u_graph] in E1. unfold umv. cbn [u_map u_check u_graph]. rewrite E1. clear E1.
      destruct (used_file find load _ path true [ns] _) as [s1|m| |] eqn:EU; cbn [gmap gbind]; [|split; [reflexivity|discriminate]..].
      pose proof (used_file_fine path Dp _ _ _ _ _ HS1 HI2 EU) as [F1 F2].
      assert (HI3 : fine {| u_map := put path ns (u_map s1); u_check := u_check s1; u_graph := u_graph s1 |}).
      { constructor; cbn [u_check u_map]; [exact F1|]. intros p n K. apply FlatFacts.in_put in K as [K|[-> ->]]; [apply F2, K|split; assumption]. }
      destruct (IH _ HI3) as [J1 J2]. split; [|exact J2]. rewrite <- J1. f_equal. unfold umv. cbn [u_map u_check u_graph]. f_equal. apply (put_keys mv inj (fun x => x)).
  Qed.
  Lemma find_used_mv fuel path src : D path -> S src -> find_used_templates find' load' parse fuel (mv path) src = gmap (moved_templates mv) (find_used_templates find load parse fuel path src) /\
    forall l, find_used_templates find load parse fuel path src = GOk l -> forall p ns, In (p, ns) l -> D p /\ Forall (good Q) ns.
  Proof. intros H1 H2. unfold find_used_templates. apply (used_loop_mv fuel {| u_map := []; u_check := [(path, src)]; u_graph := [] |}). constructor; cbn; [intros p s [[= <- <-]|[]]; auto|contradiction]. Qed.
End Used.
