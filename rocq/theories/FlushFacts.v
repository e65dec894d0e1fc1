(** * Merging pending output into one formatted write is invisible. *)
From Coq Require Import Permutation ZArith ZifyBool ZifyNat ZifyN.
From Verif Require Import Base Ws Ast Ident GenExpr Heritage Gen Sem RefSem RexprFacts.
Local Open Scope N_scope.

Section Flush.
  Variable w : world.
  Variable inp : ginput.
  Notation text := (option str).

  (** The expression written for a pending item. *)
  Definition item_expr (m : chain) (x : writable) : res (option rexpr) :=
    match x with
    | WLit _ => Ok None
    | WExpr e => let! (r, wr) := visit_expr inp m e in Ok (Some (if wr then r else RMarkup (f_escaper inp) r))
    | WGen r wr => Ok (Some (if wr then r else RMarkup (f_escaper inp) r))
    end.
  (** What a Rust expression shows; [Done None]: it fails. *)
  Definition rshow (en : env w) (st : store w) (r : rexpr) : out text :=
    match reval w en st r with Done v => Done (w_display w v) | Fails => Done None | Unset => Unset end.
  Definition item_val (m : chain) (en : env w) (st : store w) (x : writable) : out text :=
    match x with
    | WLit s => Done (Some s)
    | _ => match item_expr m x with Ok (Some r) => rshow en st r | _ => Unset end
    end.
  Fixpoint pend_val (m : chain) (en : env w) (st : store w) (ws : list writable) : out text :=
    match ws with
    | [] => Done (Some [])
    | x :: ws' => let^ a := item_val m en st x in let^ b := pend_val m en st ws' in Done (tapp a b)
    end.
  Definition fails_if_none (t : text) : out str := match t with Some s => Done s | None => Fails end.
  Definition parts_val (en : env w) (st : store w) (p : wparts) : out str :=
    match p with NoParts => Done [] | LitParts s => Done s | FmtParts f a => format w en st f a end.

  (** ** Format strings *)
  Inductive fp := FL (s : str) | FA (id : nat).
  Definition fp_fmt (x : fp) : str := match x with FL s => double_braces s | FA id => lit "{" ++ arg_name id ++ lit "}" end.
  Definition fp_pieces (x : fp) : list piece := match x with FL s => map PChr s | FA id => [PArg (arg_name id)] end.

  Lemma fmt_parse_lit s r : fmt_parse (double_braces s ++ r) None = option_map (app (map PChr s)) (fmt_parse r None).
  Proof.
    induction s as [|c s IH]; [cbn; destruct (fmt_parse r None); reflexivity|].
    unfold double_braces in *. cbn [map concat]. rewrite <- app_assoc.
    destruct (N.eqb_spec c 123) as [->|H1]; [|destruct (N.eqb_spec c 125) as [->|H2]]; cbn [app].
    - cbn [fmt_parse]. rewrite !N.eqb_refl. rewrite IH. destruct (fmt_parse r None); reflexivity.
    - cbn [fmt_parse]. rewrite !N.eqb_refl. change (125 =? 123) with false. cbv iota. rewrite IH. destruct (fmt_parse r None); reflexivity.
    - cbn [fmt_parse]. rewrite (proj2 (N.eqb_neq _ _) H1), (proj2 (N.eqb_neq _ _) H2). rewrite IH.
      destruct (fmt_parse r None); reflexivity.
  Qed.
  Lemma fmt_parse_name x r : ~ In 125 x -> forall acc, fmt_parse (x ++ 125 :: r) (Some acc) = option_map (cons (PArg (rev acc ++ x))) (fmt_parse r None).
  Proof.
    induction x as [|c x IH]; intros Hx acc.
    - cbn [app fmt_parse]. rewrite N.eqb_refl. rewrite app_nil_r. destruct (fmt_parse r None); reflexivity.
    - cbn [app fmt_parse]. destruct (N.eqb_spec c 125) as [->|Hc]; [exfalso; apply Hx; left; reflexivity|].
      rewrite IH by (intros H; apply Hx; right; exact H). cbn [rev]. rewrite <- app_assoc. reflexivity.
  Qed.
  Lemma arg_name_no_brace id : ~ In 125 (arg_name id).
  Proof.
    unfold arg_name. intros H. apply in_app_or in H as [H|H].
    - vm_compute in H. repeat (destruct H as [H|H]; [discriminate H|]). destruct H.
    - pose proof (nat_str_digits id) as D. rewrite Forall_forall in D. apply D in H. lia.
  Qed.
  Lemma fmt_parse_open c s : c <> 123 -> fmt_parse (123 :: c :: s) None = fmt_parse (c :: s) (Some []).
  Proof. intros H. cbn [fmt_parse]. rewrite N.eqb_refl. rewrite (proj2 (N.eqb_neq _ _) H). reflexivity. Qed.
  Lemma fmt_parse_arg id r : fmt_parse (fp_fmt (FA id) ++ r) None = option_map (cons (PArg (arg_name id))) (fmt_parse r None).
  Proof.
    cbn [fp_fmt]. pose proof (arg_name_no_brace id) as H. change (lit "{") with [123]. change (lit "}") with [125].
    rewrite <- !app_assoc.
    assert (E : exists x, arg_name id = 101 :: x) by (eexists; reflexivity). destruct E as [x E]. rewrite E in *.
    change ([123] ++ (101 :: x) ++ [125] ++ r) with (123 :: 101 :: (x ++ 125 :: r)).
    rewrite fmt_parse_open by discriminate. change (101 :: x ++ 125 :: r) with ((101 :: x) ++ 125 :: r).
    exact (fmt_parse_name (101 :: x) r H []).
  Qed.
  Lemma fmt_parse_pieces l : fmt_parse (concat (map fp_fmt l)) None = Some (concat (map fp_pieces l)).
  Proof.
    induction l as [|x l IH]; [reflexivity|]. cbn [map concat]. destruct x as [s|id].
    - cbn [fp_fmt]. rewrite fmt_parse_lit, IH. reflexivity.
    - rewrite fmt_parse_arg, IH. reflexivity.
  Qed.

  (** ** What [format_loop] builds *)
  Definition item_fp (m : chain) (args : list (nat * rexpr)) (x : writable) (y : fp) : Prop :=
    match y with
    | FL s => x = WLit s
    | FA id => exists r, item_expr m x = Ok (Some r) /\ In (id, r) args
    end.
  Record fok (m : chain) (ws : list writable) (p : fparts) (l : list fp) : Prop := {
    fk_fmt : p_format p = concat (map fp_fmt l);
    fk_items : Forall2 (item_fp m (p_args p)) ws l;
    fk_dup : NoDup (map fst (p_args p));
    fk_bound : Forall (fun a => fst a < p_named p)%nat (p_args p);
    fk_cache : forall r id, In (r, id) (p_cache p) -> In (id, r) (p_args p);
    fk_used : Forall (fun a => exists x, In x ws /\ item_expr m x = Ok (Some (snd a))) (p_args p)
  }.
  Lemma cache_get_In r l id : cache_get r l = Some id -> In (r, id) l.
  Proof.
    induction l as [|[k v] l IH]; cbn; [discriminate|]. destruct (rexpr_eqb r k) eqn:E.
    - intros H. injection H as <-. apply rexpr_eqb_eq in E. subst. auto.
    - auto.
  Qed.
  Lemma item_fp_mono m args args' x y : incl args args' -> item_fp m args x y -> item_fp m args' x y.
  Proof. intros H. destruct y; cbn; [auto|]. intros (r & H1 & H2). exists r. auto. Qed.
  Lemma Forall2_impl {A B} (R S : A -> B -> Prop) l l' : (forall a b, R a b -> S a b) -> Forall2 R l l' -> Forall2 S l l'.
  Proof. intros H. induction 1; constructor; auto. Qed.
  Lemma Forall2_snoc {A B} (R : A -> B -> Prop) l l' a b : Forall2 R l l' -> R a b -> Forall2 R (l ++ [a]) (l' ++ [b]).
  Proof. intros H1 H2. apply Forall2_app; auto. Qed.
  Lemma concat_map_snoc l a : concat (map fp_fmt (l ++ [a])) = concat (map fp_fmt l) ++ fp_fmt a.
  Proof. rewrite map_app, concat_app. cbn. now rewrite app_nil_r. Qed.

  Lemma named_expression_ok m ws p l x r (wrapped cacheable : bool) :
    fok m ws p l -> item_expr m x = Ok (Some (if wrapped then r else RMarkup (f_escaper inp) r)) ->
    exists y, fok m (ws ++ [x]) (named_expression inp r wrapped cacheable p) (l ++ [y]).
  Proof.
    intros H Hx. unfold named_expression. set (ex := if wrapped then r else _) in *.
    assert (New : fok m (ws ++ [x]) {| p_format := p_format p ++ lit "{" ++ arg_name (p_named p) ++ lit "}"; p_args := p_args p ++ [(p_named p, ex)];
         p_size := p_size p + 3; p_cache := (ex, p_named p) :: p_cache p; p_named := S (p_named p) |} (l ++ [FA (p_named p)])).
    { destruct H. constructor; cbn [p_format p_args p_cache p_named].
      - rewrite concat_map_snoc, fk_fmt0. reflexivity.
      - apply Forall2_snoc.
        + eapply Forall2_impl; [|exact fk_items0]. intros a b. apply item_fp_mono. apply incl_appl, incl_refl.
        + cbn [item_fp]. exists ex. split; [exact Hx|]. apply in_or_app. right. left. reflexivity.
      - rewrite map_app. cbn.
        apply Permutation_NoDup with (l := p_named p :: map fst (p_args p)).
        + apply Permutation_cons_append.
        + constructor; [|exact fk_dup0]. intros Hin. apply in_map_iff in Hin as (a & Ha & Hin).
          rewrite Forall_forall in fk_bound0. apply fk_bound0 in Hin. lia.
      - apply Forall_app. split; [|repeat constructor; cbn; lia]. eapply Forall_impl; [|exact fk_bound0]. cbn. intros. lia.
      - intros r0 id [E|E].
        + injection E as <- <-. apply in_or_app. right. left. reflexivity.
        + apply in_or_app. left. auto.
      - apply Forall_app. split.
        + eapply Forall_impl; [|exact fk_used0]. intros a (y & H1 & H2). exists y. split; [apply in_or_app; auto|exact H2].
        + repeat constructor. cbn. exists x. split; [apply in_or_app; right; left; reflexivity|exact Hx]. }
    destruct (cache_get ex (p_cache p)) as [id|] eqn:E; [|eexists; exact New].
    destruct cacheable.
    - exists (FA id). apply cache_get_In in E. destruct H. constructor; cbn [p_format p_args p_cache p_named]; auto.
      + rewrite concat_map_snoc, fk_fmt0. reflexivity.
      + apply Forall2_snoc; [exact fk_items0|]. exists ex. auto.
      + eapply Forall_impl; [|exact fk_used0]. intros a (y & H1 & H2). exists y. split; [apply in_or_app; auto|exact H2].
    - exists (FA (p_named p)). destruct New. constructor; cbn [p_format p_args p_cache p_named] in *; auto.
      intros r0 id0 Hin. apply fk_cache0. right. exact Hin.
  Qed.
  Lemma format_loop_ok m ws : forall done p l p', fok m done p l -> format_loop inp m ws p = Ok p' ->
    exists l', fok m (done ++ ws) p' l'.
  Proof.
    induction ws as [|x ws IH]; intros done p l p' H E; cbn [format_loop] in E.
    - injection E as <-. rewrite app_nil_r. eauto.
    - replace (done ++ x :: ws) with ((done ++ [x]) ++ ws) by (rewrite <- app_assoc; reflexivity).
      destruct x as [s|e|r wr].
      + eapply IH; [|exact E]. instantiate (1 := l ++ [FL s]). destruct H. constructor; cbn [p_format p_args p_cache p_named]; auto.
        * rewrite concat_map_snoc, fk_fmt0. reflexivity.
        * apply Forall2_snoc; [exact fk_items0|]. reflexivity.
        * eapply Forall_impl; [|exact fk_used0]. intros a (y & H1 & H2). exists y. split; [apply in_or_app; auto|exact H2].
      + destruct (visit_expr inp m e) as [[r wr]| |] eqn:V; try discriminate E. cbn [rbind] in E.
        edestruct (named_expression_ok m done p l (WExpr e) r wr (is_cacheable e) H) as [y Hy]; [cbn; rewrite V; reflexivity|].
        eapply IH; [exact Hy|exact E].
      + edestruct (named_expression_ok m done p l (WGen r wr) r wr false H) as [y Hy]; [reflexivity|].
        eapply IH; [exact Hy|exact E].
  Qed.

  (** ** Evaluating it *)
  Section Eval.
    Variables (m : chain) (en : env w) (st : store w).
    Definition arg_val (a : nat * rexpr) : out (str * V w) := let^ v := reval w en st (snd a) in Done (arg_name (fst a), v).
    Lemma out_map_args args : Forall (fun a => reval w en st (snd a) <> Unset) args ->
      (exists vals, out_map arg_val args = Done vals /\ Forall2 (fun a b => fst b = arg_name (fst a) /\ reval w en st (snd a) = Done (snd b)) args vals) \/
      (out_map arg_val args = Fails /\ Exists (fun a => reval w en st (snd a) = Fails) args).
    Proof.
      induction 1 as [|a args Ha H IH]; [left; exists []; split; [reflexivity|constructor]|].
      cbn [out_map]. unfold arg_val at 1 3. destruct (reval w en st (snd a)) as [v| |] eqn:E; [|right; split; [reflexivity|left; exact E]|congruence].
      cbn [obnd]. destruct IH as [(vals & -> & IH)|[-> IH]].
      - left. eexists. split; [reflexivity|]. constructor; auto.
      - right. split; [reflexivity|]. right. exact IH.
    Qed.
    Lemma get_arg args vals id r : Forall2 (fun a b => fst b = arg_name (fst a) /\ reval w en st (snd a) = Done (snd b)) args vals ->
      NoDup (map fst args) -> In (id, r) args -> exists v, get (arg_name id) vals = Some v /\ reval w en st r = Done v.
    Proof.
      induction 1 as [|[k e] [x v] args vals [H1 H2] H IH]; intros D Hin; [destruct Hin|].
      cbn [map fst] in D. inversion D as [|? ? Hk D']; subst. cbn [fst snd] in *. subst x. cbn [get].
      destruct Hin as [E|Hin].
      - injection E as -> ->. rewrite str_eqb_refl. eauto.
      - rewrite (proj2 (str_eqb_neq _ _)); [apply IH; assumption|].
        intros E. apply arg_name_inj in E. subst. apply Hk. apply in_map_iff. exists (k, r). auto.
    Qed.
    Lemma fmt_text_app vals a b : fmt_text w vals (a ++ b) = tapp (fmt_text w vals a) (fmt_text w vals b).
    Proof.
      induction a as [|x a IH]; cbn [app fmt_text]; [destruct (fmt_text w vals b); reflexivity|].
      destruct x as [c|x]; cbn [fmt_text obind].
      - rewrite IH. destruct (fmt_text w vals a), (fmt_text w vals b); reflexivity.
      - destruct (get x vals) as [v|]; cbn [obind]; [|reflexivity]. destruct (w_display w v) as [d|]; cbn [obind]; [|reflexivity].
        rewrite IH. destruct (fmt_text w vals a), (fmt_text w vals b); cbn; rewrite <- ?app_assoc; reflexivity.
    Qed.
    Lemma fmt_text_chars vals s : fmt_text w vals (map PChr s) = Some s.
    Proof. induction s as [|c s IH]; cbn; [reflexivity|]. rewrite IH. reflexivity. Qed.
    Lemma pend_val_text args vals ws l t : Forall2 (item_fp m args) ws l ->
      Forall2 (fun a b => fst b = arg_name (fst a) /\ reval w en st (snd a) = Done (snd b)) args vals -> NoDup (map fst args) ->
      pend_val m en st ws = Done t -> fmt_text w vals (concat (map fp_pieces l)) = t.
    Proof.
      intros H HV D. revert t. induction H as [|x y ws l Hxy H IH]; intros t E.
      - injection E as <-. reflexivity.
      - cbn [pend_val] in E. destruct (item_val m en st x) as [a| |] eqn:Ex; try discriminate E. cbn [obnd] in E.
        destruct (pend_val m en st ws) as [b| |]; try discriminate E. injection E as <-.
        cbn [map concat]. rewrite fmt_text_app. rewrite (IH b eq_refl). f_equal.
        destruct y as [s|id]; cbn [item_fp] in Hxy.
        + subst x. cbn [item_val] in Ex. injection Ex as <-. apply fmt_text_chars.
        + destruct Hxy as (r & Hr & Hin). destruct (get_arg _ _ _ _ HV D Hin) as (v & Hg & Hv).
          cbn [fp_pieces fmt_text]. rewrite Hg. cbn [obind].
          assert (Ea : Done a = rshow en st r).
          { rewrite <- Ex. destruct x as [s|e|r0 wr]; [discriminate Hr| |]; unfold item_val; rewrite Hr; reflexivity. }
          unfold rshow in Ea. rewrite Hv in Ea. injection Ea as ->. destruct (w_display w v) as [d|]; [|reflexivity].
          cbn [obind]. rewrite app_nil_r. reflexivity.
    Qed.
    Lemma pend_val_In ws t x : pend_val m en st ws = Done t -> In x ws -> exists a, item_val m en st x = Done a /\ (a = None -> t = None).
    Proof.
      revert t. induction ws as [|y ws IH]; intros t E Hin; [destruct Hin|]. cbn [pend_val] in E.
      destruct (item_val m en st y) as [a| |] eqn:Ey; try discriminate E. cbn [obnd] in E.
      destruct (pend_val m en st ws) as [b| |]; try discriminate E. injection E as <-.
      destruct Hin as [->|Hin].
      - exists a. split; [exact Ey|]. intros ->. reflexivity.
      - destruct (IH b eq_refl Hin) as (a' & H1 & H2). exists a'. split; [exact H1|]. intros H. rewrite (H2 H). destruct a; reflexivity.
    Qed.
    Lemma pend_val_lits ws : all_lits ws = true -> pend_val m en st ws = Done (Some (lits_text ws)).
    Proof.
      induction ws as [|x ws IH]; intros H; [reflexivity|]. cbn [all_lits forallb] in H. apply andb_prop in H as [H1 H2].
      destruct x as [s| |]; try discriminate H1. cbn [pend_val item_val obnd]. rewrite IH by exact H2. reflexivity.
    Qed.

    (** The flush writes what the pending items show, in their order. *)
    Theorem prepare_format_val ws named z parts named' t : prepare_format inp m ws named = Ok (z, parts, named') ->
      pend_val m en st ws = Done t -> parts_val en st parts = fails_if_none t.
    Proof.
      unfold prepare_format. intros E P. destruct ws as [|x ws].
      { injection E as <- <- <-. cbn in P. injection P as <-. reflexivity. }
      set (l0 := x :: ws) in *. clearbody l0. clear x ws. destruct (all_lits l0) eqn:L.
      { injection E as <- <- <-. rewrite pend_val_lits in P by exact L. injection P as <-. reflexivity. }
      destruct (format_loop inp m l0 _) as [p| |] eqn:F; try discriminate E. cbn [rbind] in E. injection E as <- <- <-.
      eapply format_loop_ok with (done := []) (l := []) in F.
      2: { constructor; cbn; try constructor. intros r id []. }
      destruct F as [l F]. cbn [app] in F. destruct F as [Hf Hi Hd _ _ Hu]. cbn [parts_val]. unfold format.
      change (fun a => let^ v := reval w en st (snd a) in Done (arg_name (fst a), v)) with arg_val.
      assert (HU : Forall (fun a => reval w en st (snd a) <> Unset /\ (reval w en st (snd a) = Fails -> t = None)) (p_args p)).
      { eapply Forall_impl; [|exact Hu]. intros [id r] (x & Hx & Hr). cbn [snd] in *.
        destruct (pend_val_In _ _ _ P Hx) as (a & Ha & Hn).
        assert (Ea : Done a = rshow en st r).
        { rewrite <- Ha. destruct x as [s|e|r0 wr]; [discriminate Hr| |]; unfold item_val; rewrite Hr; reflexivity. }
        unfold rshow in Ea. split.
        - intros N. rewrite N in Ea. discriminate Ea.
        - intros N. rewrite N in Ea. injection Ea as ->. auto. }
      destruct (out_map_args (p_args p)) as [(vals & -> & HV)|[-> HF]].
      { eapply Forall_impl; [|exact HU]. intros a [Ha _]. exact Ha. }
      - cbn [obnd]. rewrite Hf, fmt_parse_pieces. cbn [of_opt obnd]. rewrite (pend_val_text _ _ _ _ _ Hi HV Hd P). destruct t; reflexivity.
      - cbn [obnd]. apply Exists_exists in HF as (a & Ha & HF). rewrite Forall_forall in HU. apply HU in Ha as [_ Ha]. rewrite (Ha HF). reflexivity.
    Qed.
  End Eval.
End Flush.
