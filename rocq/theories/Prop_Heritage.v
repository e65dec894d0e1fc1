(** * Inheritance and the search for templates: C34, C35, C40, C43.  Specifications in HeritageSpec.v. *)
From Coq Require Import ZArith.
From Verif Require Import Base Ws Ast GenExpr Heritage Gen HeritageSpec HeritageFacts UsedFacts TestWorld ParseTests.
Local Open Scope N_scope.

(** ** C34, C35 *)
(** The contexts of a set of templates know exactly the blocks in them (except in macros and filter blocks), and their parent. *)
Theorem C34_context find path nodes c : context_new find path nodes = GOk c ->
  c_nodes c = nodes /\
  (forall x d, get x (c_blocks c) = Some d -> has_block nodes x d) /\
  (forall x d, has_block nodes x d -> get x (c_blocks c) <> None) /\
  (forall p, c_extends c = Some p -> exists q, In (NExtends q) nodes /\ find q path = Ok p) /\
  (forall q, In (NExtends q) nodes -> exists p, find q path = Ok p /\ c_extends c = Some p).
Proof.
  intros H. apply context_new_spec in H as (N & _ & _ & B1 & B2 & E1 & E2).
  split; [exact N|]. split; [exact B1|]. split; [exact B2|]. split; [exact E1|]. intros q Hq. apply E2. constructor. exact Hq.
Qed.
Lemma contexts_blocks_ok find templates contexts : build_contexts find templates = GOk contexts -> blocks_ok contexts.
Proof.
  revert contexts. induction templates as [|[p ns] l IH]; cbn [build_contexts]; intros contexts H.
  - injection H as <-. intros p c H. discriminate.
  - apply gbind_inv in H as (c & Hc & H). apply gbind_inv in H as (cs & Hs & [= <-]). intros q c' G. cbn [get] in G.
    destruct (str_eqb q p); [|eapply IH; eauto]. injection G as <-. apply context_new_spec in Hc as (_ & ND & _). exact ND.
Qed.
(** The code of a template with blocks or a parent is that of the last template in the line of parents. *)
Theorem C34_base_template inp find fuel templates r contexts c :
  build_contexts find templates = GOk contexts -> get (f_path inp) contexts = Some c -> c_extends c <> None ->
  build_template inp find fuel templates = GOk r ->
  exists line h, lineage contexts c line /\ heritage_new fuel contexts c = GOk h /\
    (let base := last line c in
     let* (code, z, st) := handle inp contexts find fuel (Some h) base (c_nodes base) LTop (initial inp 2) in GOk (code, z)) = GOk r.
Proof.
  intros Hc Hg He H. unfold build_template in H. rewrite Hc in H. cbn [gbind] in H. rewrite Hg in H.
  assert (HH : exists h, heritage_new fuel contexts c = GOk h /\ impl_template inp contexts find fuel (Some h) c = GOk r).
  { destruct (c_extends c) as [p|] eqn:Ee; [|congruence].
    assert (G : (let* her := (let* h := heritage_new fuel contexts c in match f_block inp with Some b => match get b (h_blocks h) with None => GErr (lit "cannot find block") | Some _ => GOk (Some h) end | None => GOk (Some h) end) in
                 impl_template inp contexts find fuel her c) = GOk r) by (destruct (c_blocks c); exact H).
    apply gbind_inv in G as (her & G & G2). apply gbind_inv in G as (h & G & G1). exists h. split; [exact G|].
    destruct (f_block inp) as [b|]; [destruct (get b (h_blocks h)); [|discriminate]|]; injection G1 as <-; exact G2. }
  destruct HH as (h & Hh & Hi). pose proof Hh as Hh'. apply heritage_new_spec in Hh' as (line & L & R & _); [|eapply contexts_blocks_ok; eauto].
  exists line, h. split; [exact L|]. split; [exact Hh|]. cbn zeta. rewrite R. unfold impl_template in Hi.
  apply gbind_inv in Hi as ([[code z] st] & H1 & H2). rewrite H1. cbn [gbind].
  apply gbind_inv in H2 as (? & _ & H2). apply gbind_inv in H2 as (? & _ & H2). apply gbind_inv in H2 as (? & _ & H2). apply gbind_inv in H2 as (? & _ & H2). exact H2.
Qed.

(** Where the nodes of a block are expanded: [expand] is called with the definition [(c, d)] and what can be named in it, at distance [g] from the most
    derived one, and its code is what is added. *)
Definition expands (expand : option heritage -> context -> list node -> level -> gst -> gres gen) (h : heritage) (ctx c : context)
    (d : block_def) (x : str) (g : nat) (code : list stmt) : Prop :=
  exists before st st' body after z cc, code = before ++ body ++ after /\ s_super st = Some (x, g) /\ sees ctx c cc /\
    expand (Some h) cc (b_nodes d) LBlock st = GOk (body, z, st').
Lemma write_block_expands inp contexts find templates c fuel h line expand ctx name outer st code z st' :
  build_contexts find templates = GOk contexts -> get (f_path inp) contexts = Some c -> heritage_new fuel contexts c = GOk h ->
  lineage contexts c line ->
  write_block inp expand (Some h) ctx name outer st = GOk (code, z, st') ->
  exists x g c' d, match name with Some y => x = y /\ g = O | None => exists g', s_super st = Some (x, g') /\ g = S g' end /\
    nth_error (definitions x line) g = Some (c', d) /\ expands expand h ctx c' d x g code.
Proof.
  intros Hc Hg Hh L H. apply heritage_new_spec in Hh as (line' & L' & _ & D); [|eapply contexts_blocks_ok; eauto].
  rewrite <- (lineage_det _ _ _ _ L L') in D.
  unfold write_block in H. apply gbind_inv in H as ([x g] & Hcur & H). apply gbind_inv in H as ([[before z0] st1] & Hw & H).
  cbn [fst snd] in H. rewrite D in H. destruct (definitions x line) as [|d0 ds] eqn:Ed; [discriminate|].
  destruct (nth_error (d0 :: ds) g) as [[c' d]|] eqn:En; [|discriminate].
  apply gbind_inv in H as ([[body size] child] & He & H). apply gbind_inv in H as ([[after z1] child2] & Ha & H).
  injection H as <- <- <-. exists x, g, c', d. split.
  - assert (Hs : s_super (do_flush_ws inp (ws_l outer) st) = s_super st).
    { unfold do_flush_ws. destruct (Ws.flush_ws _ _ _) as [o w]. unfold push_lits, push. destruct (s_discard (set_ws w st)); reflexivity. }
    rewrite Hs in Hcur. destruct name as [y|].
    + destruct (s_super st) as [[prev gp]|]; [destruct (str_eqb y prev); [discriminate|]|]; injection Hcur as <- <-; auto.
    + destruct (s_super st) as [[prev gp]|]; [|discriminate]. injection Hcur as <- <-. eauto.
  - split; [rewrite Ed; exact En|]. do 7 eexists. split; [reflexivity|]. split; [|split; [apply merge_sees|exact He]]. reflexivity.
Qed.
(** A block tag stands for the most derived definition of the block: the first one in the line of parents. *)
Theorem C34_most_derived inp contexts find templates c fuel h line expand ctx lv w1 x ns w2 st code z st' :
  build_contexts find templates = GOk contexts -> get (f_path inp) contexts = Some c -> heritage_new fuel contexts c = GOk h ->
  lineage contexts c line ->
  handle_node inp contexts find expand (Some h) ctx lv (NBlockDef w1 x ns w2) st = GOk (code, z, st') ->
  exists c' d ds, definitions x line = (c', d) :: ds /\ expands expand h ctx c' d x O code.
Proof.
  intros Hc Hg Hh L H. cbn [handle_node] in H. eapply write_block_expands in H as (x' & g & c' & d & [-> ->] & En & E); eauto.
  cbn in En. destruct (definitions x line) as [|a ds]; [discriminate|]. injection En as ->. eauto.
Qed.
(** [super()] in the definition at distance [g] stands for the next one; without a next one there is no code. *)
Theorem C35_next_definition inp contexts find templates c fuel h line expand ctx lv w scope args st code z st' :
  build_contexts find templates = GOk contexts -> get (f_path inp) contexts = Some c -> heritage_new fuel contexts c = GOk h ->
  lineage contexts c line ->
  handle_node inp contexts find expand (Some h) ctx lv (NCall w scope (lit "super") args) st = GOk (code, z, st') ->
  exists x g c' d, s_super st = Some (x, g) /\ nth_error (definitions x line) (S g) = Some (c', d) /\ expands expand h ctx c' d x (S g) code.
Proof.
  intros Hc Hg Hh L H. cbn [handle_node] in H. unfold write_call in H. change (str_eqb (lit "super") (lit "super")) with true in H. cbv iota in H.
  eapply write_block_expands in H as (x & g & c' & d & (g' & Hs & ->) & En & E); eauto. exists x, g', c', d. auto.
Qed.
Theorem C35_no_definition inp contexts find templates c fuel h line expand ctx lv w scope args st :
  build_contexts find templates = GOk contexts -> get (f_path inp) contexts = Some c -> heritage_new fuel contexts c = GOk h ->
  lineage contexts c line ->
  (s_super st = None \/ exists x g, s_super st = Some (x, g) /\ nth_error (definitions x line) (S g) = None) ->
  forall r, handle_node inp contexts find expand (Some h) ctx lv (NCall w scope (lit "super") args) st <> GOk r.
Proof.
  intros Hc Hg Hh L Hn [[code z] st'] H. eapply C35_next_definition in H as (x & g & c' & d & Hs & En & _); eauto.
  destruct Hn as [Hn|(x' & g' & Hs' & En')]; congruence.
Qed.

(** ** C43 *)
(** The search finds the template, everything that can be reached from it and nothing else; each file has its own contents, and
    no file is listed twice.  The file with the template's own path, if any, must be the template. *)
Theorem C43_used_templates_partial find load parse root src fuel m :
  (forall s, load root = Ok s -> s = src) ->
  find_used_templates find load parse fuel root src = GOk m ->
  NoDup (map fst m) /\ (forall p ns, get p m = Some ns -> contents load parse root src p ns) /\
  (forall p, get p m <> None <-> reachable find load parse root src p).
Proof. intros H. exact (find_used_spec find load parse root src H fuel m). Qed.

(** ** C40 *)
(** With finitely many files the search ends. *)
Theorem C40_search_ends find load parse root src files fuel :
  (forall x p q, find x p = Ok q -> In q files) -> (length files < fuel)%nat ->
  find_used_templates find load parse fuel root src <> GFuel.
Proof. intros F. exact (find_used_ends find load parse files F root src fuel). Qed.
Theorem C40_context_ends find path nodes : context_new find path nodes <> GFuel.
Proof. exact (context_new_ends find path nodes). Qed.
(** With a finite line of parents building the chain ends. *)
Theorem C40_parents_end_partial contexts c l fuel : lineage contexts c l -> (length l <= S fuel)%nat -> exists h, heritage_new fuel contexts c = GOk h.
Proof. exact (heritage_new_ok contexts c l fuel). Qed.
(** A template that extends itself is reported. *)
Theorem C40_self_extends find load parse fuel root src ns1 p ns2 : parse src = Ok (ns1 ++ NExtends p :: ns2) -> find p root = Ok root ->
  (forall n, In n ns1 -> exists l, n = NLit l) -> find_used_templates find load parse (S fuel) root src = GErr cyclic.
Proof.
  intros P F L.
  assert (H : forall st stack, used_nodes find load root true (ns1 ++ NExtends p :: ns2) st stack = Err cyclic).
  { clear P. induction ns1 as [|n ns1 IH]; intros st stack; cbn [app used_nodes].
    - cbn [used_node]. rewrite F. cbn [rbind]. rewrite str_eqb_refl. reflexivity.
    - destruct (L n) as [l ->]; [left; reflexivity|]. cbn [used_node rbind rev app]. apply IH. intros n Hn. apply L. right. exact Hn. }
  unfold find_used_templates. cbn [used_loop u_check]. rewrite P. cbn [of_res gbind used_file]. rewrite H. reflexivity.
Qed.

(** ** Examples *)
Definition three : dir :=
  [(main, lit "{% extends ""mid"" %}{% block a %}2{% call super() %}{% endblock %}");
   (lit "mid", lit "{% extends ""base"" %}{% block b %}1{% endblock %}");
   (lit "base", lit "<{% block a %}0{% endblock %}{% block b %}0{% endblock %}>")].
Example three_files : exists ts, t_templates three main = GOk ts /\ map fst ts = [lit "mid"; main; lit "base"].
Proof. eexists. split; vm_compute; reflexivity. Qed.
Example three_lineage : exists ts cs c line, t_templates three main = GOk ts /\ build_contexts (t_find three) ts = GOk cs /\
  get main cs = Some c /\ lineage cs c line /\ length line = 3%nat /\ length (definitions (lit "a") line) = 2%nat /\
  map (fun x => b_nodes (snd x)) (definitions (lit "b") line) = [[NLit (split_ws_parts (lit "1"))]; [NLit (split_ws_parts (lit "0"))]].
Proof.
  do 4 eexists. split; [vm_compute; reflexivity|]. split; [vm_compute; reflexivity|]. split; [vm_compute; reflexivity|]. split.
  - eapply lineage_child; [reflexivity|vm_compute; reflexivity|]. eapply lineage_child; [reflexivity|vm_compute; reflexivity|]. apply lineage_root. reflexivity.
  - repeat split; vm_compute; reflexivity.
Qed.
Example three_renders : t_run three None main (struct []) = GOk (Sem.Done (lit "<201>")).
Proof. vm_compute. reflexivity. Qed.

Print Assumptions C34_context.
Print Assumptions C34_base_template.
Print Assumptions C34_most_derived.
Print Assumptions C35_next_definition.
Print Assumptions C35_no_definition.
Print Assumptions C43_used_templates_partial.
Print Assumptions C40_search_ends.
Print Assumptions C40_context_ends.
Print Assumptions C40_parents_end_partial.
Print Assumptions C40_self_extends.
