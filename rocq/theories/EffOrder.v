(** * Templates in which nothing overtakes: the generated code evaluates in the order of the template. *)
From Verif Require Import Base Ws Ast Ident IdentFacts GenExpr Heritage Gen Sem RefSem RexprFacts FlushFacts Scoped HeritageFacts SimExpr SimFacts GenSteps GenElab SimRel SimBuf SimNode SimCtl SimScope Sim Effect EffectFacts EffSem.
From Coq Require Import Lia.
Local Open Scope N_scope.

(** ** Names *)
Lemma quiet_get m m' : (forall k, ch_get m' k = ch_get m k) -> quiet_aliases m -> quiet_aliases m'.
Proof. intros H Q k meta r E. rewrite H in E. exact (Q k meta r E). Qed.
Lemma quiet_insert m k v m' : ch_insert m k v = Ok m' -> (forall r, l_refs v = Some r -> quiet r = true) -> quiet_aliases m -> quiet_aliases m'.
Proof.
  intros E Hv Q k' meta r G. rewrite (ch_get_insert _ _ _ _ _ E) in G. destruct (str_eqb k' k); [injection G as <-; apply Hv|exact (Q k' meta r G)].
Qed.
Lemma quiet_target m b t p m' : visit_target m b t = Ok (p, m') -> quiet_aliases m -> quiet_aliases m'.
Proof.
  intros E Q. apply grows_target in E as (_ & _ & E). intros k meta r G R. rewrite (ch_get_insert_all _ _ _ _ _ E) in G.
  destruct (mem_str k (target_names t)); [|exact (Q k meta r G R)]. injection G as <-. destruct b; discriminate R.
Qed.
Lemma quiet_resolve m s r : quiet_aliases m -> ch_resolve m s = Some r -> quiet r = true.
Proof.
  intros Q. unfold ch_resolve. destruct (ch_get m (normalize_identifier s)) as [meta|] eqn:E; [|discriminate].
  destruct (l_refs meta) as [r'|] eqn:R; intros H; injection H as <-; [|reflexivity]. exact (Q _ _ _ E R).
Qed.
Lemma quiet_pairs inp l : forall m m1 names values, bind_pairs inp m l = Ok (m1, names, values) ->
  forallb (fun p : str * expr => once (snd p)) l = true -> quiet_aliases m -> quiet_aliases m1 /\ (names = [] -> values = []).
Proof.
  induction l as [|[p e] l IH]; intros m m1 names values E HO Q; [injection E as <- <- <-; auto|].
  cbn [forallb snd] in HO. apply andb_prop in HO as [HO1 HO2].
  assert (Copy : (let! r := visit_expr_root inp m e in let! m' := ch_insert m p m_default in
                 let! (m'', names, values) := bind_pairs inp m' l in Ok (m'', p :: names, r :: values)) = Ok (m1, names, values) ->
                 quiet_aliases m1 /\ (names = [] -> values = [])).
  { intros H. apply rbind_Ok in H as (r & _ & H). apply rbind_Ok in H as (m' & H1 & H). apply rbind_Ok in H as ([[m'' ns] vs] & H2 & H). injection H as <- <- _.
    split; [|discriminate]. apply (IH _ _ _ _ H2 HO2). eapply quiet_insert; [exact H1|discriminate|exact Q]. }
  destruct e; try exact (Copy E); cbn [bind_pairs] in E.
  - destruct (str_eqb s (lit "self")); [exact (Copy E)|]. apply rbind_Ok in E as (m' & H1 & E). apply (IH _ _ _ _ E HO2).
    eapply quiet_insert; [exact H1| |exact Q]. intros r H. injection H as <-. unfold ch_resolve_or_self.
    destruct (ch_resolve m s) as [r|] eqn:R; [exact (quiet_resolve _ _ _ Q R)|reflexivity].
  - apply rbind_Ok in E as ([r wr] & EV & E). cbv beta iota zeta in E. apply rbind_Ok in E as (m' & H1 & E). apply (IH _ _ _ _ E HO2).
    eapply quiet_insert; [exact H1| |exact Q]. intros r' H. injection H as <-. unfold once in HO1. apply andb_prop in HO1 as [C U].
    apply negb_true_iff in C, U. destruct (ch_resolve m (show r)) as [r'|] eqn:R; [exact (quiet_resolve _ _ _ Q R)|].
    exact (visit_quiet inp m Q _ C U r wr EV).
Qed.

Section Order.
  Variables (w : world) (T : Type) (x : effects w T) (inp : ginput).
  Notation act := (act T).
  Notation env := (env w).
  Notation bnd := (bnd T).
  Notation ret := (ret T).
  Notation opt := (opt T).
  Notation write := (write T).
  Notation seq := (seq T).
  Notation stop := (stop T).
  Notation refines := (refines T).
  Notation xstmt := (xstmt w T x).
  Notation xl := (xlist w T xstmt).
  Notation tmean := (tmean w T x inp).
  Notation tl := (tlist w T tmean).
  Definition same {A} (a b : eff T A) : Prop := forall t, a t = b t.

  Lemma same_refl {A} (a : eff T A) : same a a.
  Proof. intros t. reflexivity. Qed.
  Lemma same_sym {A} (a b : eff T A) : same a b -> same b a.
  Proof. intros H t. symmetry. apply H. Qed.
  Lemma same_trans {A} (a b c : eff T A) : same a b -> same b c -> same a c.
  Proof. intros H1 H2 t. rewrite H1. apply H2. Qed.
  Lemma refines_same {A} (a b : eff T A) : same a b -> refines a b.
  Proof. intros H t. rewrite <- H. destruct (a t) as [[r| |] t']; reflexivity. Qed.
  Lemma refines_refl {A} (a : eff T A) : refines a a.
  Proof. apply refines_same, same_refl. Qed.
  Lemma refines_trans {A} (a b c : eff T A) : refines a b -> refines b c -> refines a c.
  Proof.
    intros H1 H2 t. specialize (H1 t). specialize (H2 t). destruct (a t) as [[r| |] t'].
    - rewrite H1 in H2. exact H2.
    - destruct (b t) as [[r| |] t2]; [discriminate H1|exact H2|exact H2].
    - destruct (b t) as [[r| |] t2]; [discriminate H1|exact H2|exact H2].
  Qed.
  Lemma same_bnd {A B} (a a' : eff T A) (k k' : A -> eff T B) : same a a' -> (forall r, same (k r) (k' r)) -> same (bnd a k) (bnd a' k').
  Proof. intros H1 H2 t. unfold EffSem.bnd, ebnd. rewrite <- H1. destruct (a t) as [[r| |] t']; [apply H2|reflexivity|reflexivity]. Qed.
  Lemma refines_bnd {A B} (a a' : eff T A) (k k' : A -> eff T B) : refines a a' -> (forall r, refines (k r) (k' r)) -> refines (bnd a k) (bnd a' k').
  Proof.
    intros H1 H2 t. unfold EffSem.bnd, ebnd. specialize (H1 t). destruct (a t) as [[r| |] t'].
    - rewrite H1. apply H2.
    - destruct (a' t) as [[r| |] t2]; [discriminate H1|reflexivity|reflexivity].
    - destruct (a' t) as [[r| |] t2]; [discriminate H1|reflexivity|reflexivity].
  Qed.
  Lemma refines_write c c' k k' : refines c c' -> refines k k' -> refines (write c k) (write c' k').
  Proof. intros H1 H2. apply refines_bnd; [exact H1|]. intros s. apply refines_bnd; [exact H2|]. intros r. apply refines_refl. Qed.
  Lemma refines_seq a a' k k' : refines a a' -> refines k k' -> refines (seq a k) (seq a' k').
  Proof. intros H1 H2. apply refines_bnd; [exact H1|]. intros [s []]; cbn [snd]; try apply refines_refl. apply refines_bnd; [exact H2|]. intros r. apply refines_refl. Qed.
  Lemma same_write c c' k k' : same c c' -> same k k' -> same (write c k) (write c' k').
  Proof. intros H1 H2. apply same_bnd; [exact H1|]. intros s. apply same_bnd; [exact H2|]. intros r. apply same_refl. Qed.
  Lemma same_seq a a' k k' : same a a' -> same k k' -> same (seq a k) (seq a' k').
  Proof. intros H1 H2. apply same_bnd; [exact H1|]. intros [s []]; cbn [snd]; try apply same_refl. apply same_bnd; [exact H2|]. intros r. apply same_refl. Qed.

  Ltac open := intros t; unfold EffSem.seq, EffSem.write, EffSem.stop, EffSem.bnd, EffSem.ret, EffSem.opt, ebnd, pure; cbn [fst snd].
  Lemma bnd_assoc {A B C} (a : eff T A) (f : A -> eff T B) (g : B -> eff T C) : same (bnd (bnd a f) g) (bnd a (fun r => bnd (f r) g)).
  Proof. open. destruct (a t) as [[r| |] t']; reflexivity. Qed.
  Lemma seq_bnd {A} (a : eff T A) f k : same (seq (bnd a f) k) (bnd a (fun r => seq (f r) k)).
  Proof. apply bnd_assoc. Qed.
  Lemma seq_write c a k : same (seq (write c a) k) (write c (seq a k)).
  Proof.
    open. destruct (c t) as [[s| |] t1]; try reflexivity. destruct (a t1) as [[[s' fl]| |] t2]; try reflexivity. cbn [fst snd].
    destruct fl; try reflexivity. destruct (k t2) as [[[s'' fl']| |] t3]; try reflexivity. cbn [fst snd]. f_equal. f_equal. f_equal. symmetry. apply app_assoc.
  Qed.
  Lemma seq_assoc a b c : same (seq (seq a b) c) (seq a (seq b c)).
  Proof.
    open. destruct (a t) as [[[s fl]| |] t1]; try reflexivity. cbn [fst snd]. destruct fl; try reflexivity.
    destruct (b t1) as [[[s' fl']| |] t2]; try reflexivity. cbn [fst snd]. destruct fl'; try reflexivity.
    destruct (c t2) as [[[s'' fl'']| |] t3]; try reflexivity. cbn [fst snd]. f_equal. f_equal. f_equal. symmetry. apply app_assoc.
  Qed.
  Lemma seq_stop k : same (seq stop k) k.
  Proof. open. destruct (k t) as [[[s fl]| |] t']; reflexivity. Qed.
  Lemma write_nil k : same (write (ret []) k) k.
  Proof. open. destruct (k t) as [[[s fl]| |] t']; reflexivity. Qed.
  Lemma write_later s {A} (e : eff T A) f : same (write (ret s) (bnd e f)) (bnd e (fun v => write (ret s) (f v))).
  Proof. open. destruct (e t) as [[v| |] t']; try reflexivity. Qed.
  Lemma write_write s s' k : same (write (ret (s ++ s')) k) (write (ret s) (write (ret s') k)).
  Proof. open. destruct (k t) as [[[o fl]| |] t']; try reflexivity. cbn [fst snd]. rewrite app_assoc. reflexivity. Qed.

  (** ** Continuations *)
  Lemma xstmt_mono s en k k' : (forall en, refines (k en) (k' en)) -> refines (xstmt s en k) (xstmt s en k').
  Proof.
    intros H. destruct s; cbn [EffSem.xstmt]; try apply refines_refl; try apply H.
    - apply refines_write; [apply refines_refl|apply H].
    - apply refines_write; [apply refines_refl|apply H].
    - apply refines_bnd; [apply refines_refl|]. intros v. apply refines_bnd; [apply refines_refl|]. intros bs. apply H.
    - apply refines_bnd; [apply refines_refl|]. intros vs. apply H.
    - apply refines_bnd; [apply refines_refl|]. intros vs. apply H.
    - apply refines_seq; [apply refines_refl|apply H].
    - apply refines_bnd; [apply refines_refl|]. intros v. apply refines_seq; [apply refines_refl|apply H].
    - apply refines_bnd; [apply refines_refl|]. intros v. apply refines_bnd; [apply refines_refl|]. intros items. apply refines_bnd; [apply refines_refl|]. intros r.
      apply refines_write; [apply refines_refl|]. apply refines_seq; [apply refines_refl|]. apply refines_seq; [apply refines_refl|apply H].
    - apply refines_seq; [apply refines_refl|apply H].
  Qed.
  Lemma xlist_mono l : forall en k k', (forall en, refines (k en) (k' en)) -> refines (xl l en k) (xl l en k').
  Proof. induction l as [|s l IH]; intros en k k' H; cbn [EffSem.xlist]; [apply H|]. apply xstmt_mono. intros en'. apply IH, H. Qed.
  Lemma xlist_app l l' : forall en k, refines (xl l en (fun en' => xl l' en' k)) (xl (l ++ l') en k).
  Proof. induction l as [|s l IH]; intros en k; cbn [app EffSem.xlist]; [apply refines_refl|]. apply xstmt_mono. intros en'. apply IH. Qed.
  Definition flat (s : stmt) : bool := match s with SLet _ _ | SLetTuple _ _ | SLetStr _ _ | SLetFmt _ _ _ => false | _ => true end.
  Lemma flat_env l : forallb flat l = true -> forall en k, refines (xl l en (fun _ => k en)) (xl l en k).
  Proof.
    induction l as [|s l IH]; intros H en k; [apply refines_refl|]. cbn [forallb] in H. apply andb_prop in H as [H1 H2]. cbn [EffSem.xlist].
    assert (E : forall k1, xstmt s en k1 = xstmt s en (fun _ => k1 en)) by (intros k1; destruct s; try reflexivity; discriminate H1).
    rewrite (E (fun en' => xl l en' (fun _ => k en))). rewrite (E (fun en' => xl l en' k)). apply xstmt_mono. intros _. apply IH. exact H2.
  Qed.
  Lemma flat_env' l : forallb flat l = true -> forall en k, refines (xl l en k) (xl l en (fun _ => k en)).
  Proof.
    induction l as [|s l IH]; intros H en k; [apply refines_refl|]. cbn [forallb] in H. apply andb_prop in H as [H1 H2]. cbn [EffSem.xlist].
    assert (E : forall k1, xstmt s en k1 = xstmt s en (fun _ => k1 en)) by (intros k1; destruct s; try reflexivity; discriminate H1).
    rewrite (E (fun en' => xl l en' (fun _ => k en))). rewrite (E (fun en' => xl l en' k)). apply xstmt_mono. intros _. apply IH. exact H2.
  Qed.
  Lemma tmean_ext n m en k k' : (forall m en, same (k m en) (k' m en)) -> same (tmean n m en k) (tmean n m en k').
  Proof.
    intros H. destruct n; cbn [EffSem.tmean]; try apply same_refl.
    - apply same_write; [apply same_refl|apply H].
    - apply same_write; [apply same_refl|apply H].
    - destruct val as [e|]; [|apply same_refl]. unfold code_or. destruct (visit_expr_root inp m e); try apply same_refl.
      destruct (visit_target m true var) as [[p m']| |]; try apply same_refl. destruct (waiting m var); [apply same_refl|].
      apply same_bnd; [apply same_refl|]. intros v. apply same_bnd; [apply same_refl|]. intros bs. apply H.
    - apply same_seq; [apply same_refl|apply H].
    - unfold code_or. destruct (visit_expr_root inp m e); try apply same_refl. apply same_bnd; [apply same_refl|]. intros v. apply same_seq; [apply same_refl|apply H].
    - unfold code_or. destruct (visit_expr_root inp (ch_push m) it); try apply same_refl. destruct (EffSem.visit_filter _ _ _ _); try apply same_refl.
      destruct (visit_target _ _ _) as [[p m']| |]; try apply same_refl. apply same_bnd; [apply same_refl|]. intros v. apply same_bnd; [apply same_refl|]. intros items.
      apply same_bnd; [apply same_refl|]. intros r. apply same_write; [apply same_refl|]. apply same_seq; [apply same_refl|]. apply same_seq; [apply same_refl|apply H].
    - apply same_seq; [apply same_refl|apply H].
    - apply same_seq; [apply same_refl|apply H].
    - unfold code_or. destruct (bind_pairs _ _ _) as [[[m1 ns] vs]| |]; try apply same_refl. apply same_bnd; [apply same_refl|]. intros v. apply same_seq; [apply same_refl|apply H].
  Qed.
  Lemma tlist_ext l : forall m en k k', (forall m en, same (k m en) (k' m en)) -> same (tl l m en k) (tl l m en k').
  Proof. induction l as [|n l IH]; intros m en k k' H; cbn [EffSem.tlist]; [apply H|]. apply tmean_ext. intros m' en'. apply IH, H. Qed.
  Lemma tlist_app l l' : forall m en k, same (tl (l ++ l') m en k) (tl l m en (fun m' en' => tl l' m' en' k)).
  Proof. induction l as [|n l IH]; intros m en k; cbn [app EffSem.tlist]; [apply same_refl|]. apply tmean_ext. intros m' en'. apply IH. Qed.
  Lemma seq_pure (o : out (str * flow)) k : done o = false -> same (seq (pure T o) k) (pure T o).
  Proof. intros H. open. destruct o; [discriminate H|reflexivity|reflexivity]. Qed.
  Lemma tmean_seq n m en k g : same (seq (tmean n m en k) g) (tmean n m en (fun m' en' => seq (k m' en') g)).
  Proof.
    destruct n; cbn [EffSem.tmean]; try apply seq_write; try apply seq_assoc; try (apply seq_pure; reflexivity); try apply same_refl.
    - destruct val as [e|]; [|apply seq_pure; reflexivity]. unfold code_or. destruct (visit_expr_root inp m e); try (apply seq_pure; reflexivity).
      destruct (visit_target m true var) as [[p m']| |]; try (apply seq_pure; reflexivity). destruct (waiting m var); [apply seq_pure; reflexivity|].
      eapply same_trans; [apply seq_bnd|]. apply same_bnd; [apply same_refl|]. intros v. apply seq_bnd.
    - unfold code_or. destruct (visit_expr_root inp m e); try (apply seq_pure; reflexivity). eapply same_trans; [apply seq_bnd|]. apply same_bnd; [apply same_refl|]. intros v. apply seq_assoc.
    - unfold code_or. destruct (visit_expr_root inp (ch_push m) it); try (apply seq_pure; reflexivity). destruct (EffSem.visit_filter _ _ _ _); try (apply seq_pure; reflexivity).
      destruct (visit_target _ _ _) as [[p m']| |]; try (apply seq_pure; reflexivity). eapply same_trans; [apply seq_bnd|]. apply same_bnd; [apply same_refl|]. intros v.
      eapply same_trans; [apply seq_bnd|]. apply same_bnd; [apply same_refl|]. intros items. eapply same_trans; [apply seq_bnd|]. apply same_bnd; [apply same_refl|]. intros r.
      eapply same_trans; [apply seq_write|]. apply same_write; [apply same_refl|]. eapply same_trans; [apply seq_assoc|]. apply same_seq; [apply same_refl|]. apply seq_assoc.
    - unfold code_or. destruct (bind_pairs _ _ _) as [[[m1 ns] vs]| |]; try (apply seq_pure; reflexivity). eapply same_trans; [apply seq_bnd|]. apply same_bnd; [apply same_refl|]. intros v. apply seq_assoc.
  Qed.
  Lemma tlist_seq l g : forall m en k, same (seq (tl l m en k) g) (tl l m en (fun m' en' => seq (k m' en') g)).
  Proof.
    induction l as [|n l IH]; intros m en k; cbn [EffSem.tlist]; [apply same_refl|]. eapply same_trans; [apply tmean_seq|]. apply tmean_ext. intros m' en'. apply IH.
  Qed.
  Lemma tblock_seq l m en g : same (seq (tblock w T tmean l m en) g) (tl l m en (fun _ _ => g)).
  Proof. eapply same_trans; [apply tlist_seq|]. apply tlist_ext. intros _ _. apply seq_stop. Qed.
  Lemma tlist_texts ls : forall m en k, same (tl (texts ls) m en k) (write (ret (concat ls)) (k m en)).
  Proof.
    induction ls as [|s ls IH]; intros m en k; cbn [texts map EffSem.tlist concat]; [apply same_sym, write_nil|]. cbn [EffSem.tmean].
    eapply same_trans; [apply same_write; [apply same_refl|apply IH]|]. apply same_sym, write_write.
  Qed.

  (** ** What is pending *)
  Notation xshow := (xshow w T x inp).
  Fixpoint xbuf (m : chain) (en : env) (b : list writable) : eff T str :=
    match b with
    | [] => ret []
    | i :: b' =>
        bnd (match i with
             | WLit s => ret s
             | WExpr e => xshow m en e
             | WGen r wr => bnd (xeval w T x en [] (if wr then r else RMarkup (f_escaper inp) r)) (fun v => opt (w_display w v))
             end) (fun s => bnd (xbuf m en b') (fun s' => ret (s ++ s')))
    end.
  Lemma write_cat c d k : same (write (bnd c (fun s => bnd d (fun s' => ret (s ++ s')))) k) (write c (write d k)).
  Proof.
    open. destruct (c t) as [[s| |] t1]; try reflexivity. destruct (d t1) as [[s'| |] t2]; try reflexivity.
    destruct (k t2) as [[[o fl]| |] t3]; try reflexivity. cbn [fst snd]. rewrite app_assoc. reflexivity.
  Qed.
  Lemma xbuf_app m en b b' k : same (write (xbuf m en (b ++ b')) k) (write (xbuf m en b) (write (xbuf m en b') k)).
  Proof.
    induction b as [|i b IH]; [intros t; symmetry; apply write_nil|]. cbn [app xbuf]. eapply same_trans; [apply write_cat|].
    eapply same_trans; [apply same_write; [apply same_refl|exact IH]|]. apply same_sym, write_cat.
  Qed.
  Lemma xbuf_lits m en b : all_lits b = true -> same (xbuf m en b) (ret (lits_text b)).
  Proof.
    induction b as [|i b IH]; intros H; [apply same_refl|]. cbn [all_lits forallb] in H. apply andb_prop in H as [H1 H2]. destruct i; try discriminate H1.
    cbn [xbuf]. intros t. specialize (IH H2 t). unfold EffSem.bnd, EffSem.ret, ebnd, pure in *. rewrite IH. reflexivity.
  Qed.
  Definition counted_w (i : writable) : bool := match i with WExpr e => counted e | _ => true end.
  Lemma pieces_refine m en b qs : Forall2 (piece_of inp m) b qs -> refines (xbuf m en b) (xpieces w T x en [] qs).
  Proof.
    intros H.
    assert (K : forall t, match xbuf m en b t with
      | (Done o, t') => exists vs, eff_map T (piece_eff w T x en []) qs t = (Done vs, t') /\ show_all w vs = Some o
      | _ => match eff_map T (piece_eff w T x en []) qs t with (Done vs, _) => show_all w vs = None | _ => True end
      end).
    { induction H as [|i q b qs H _ IH]; intros t; [exists []; split; reflexivity|]. cbn [xbuf eff_map].
      assert (ST : forall d, (forall t, match d t with
           | (Done o, t') => exists v, piece_eff w T x en [] q t = (Done v, t') /\ forall l, show_all w (v :: l) = let? s := show_all w l in Some (o ++ s)
           | _ => match piece_eff w T x en [] q t with (Done v, _) => forall l, show_all w (v :: l) = None | _ => True end end) ->
         match bnd d (fun s => bnd (xbuf m en b) (fun s' => ret (s ++ s'))) t with
         | (Done o, t') => exists vs, ebnd T (piece_eff w T x en [] q) (fun b => ebnd T (eff_map T (piece_eff w T x en []) qs) (fun bs => pure T (Done (b :: bs)))) t = (Done vs, t') /\ show_all w vs = Some o
         | _ => match ebnd T (piece_eff w T x en [] q) (fun b => ebnd T (eff_map T (piece_eff w T x en []) qs) (fun bs => pure T (Done (b :: bs)))) t with (Done vs, _) => show_all w vs = None | _ => True end
         end).
      { intros d Hd. specialize (Hd t). unfold EffSem.bnd, EffSem.ret, ebnd, pure. destruct (d t) as [[o| |] t1].
        - destruct Hd as (v & E & Hv). rewrite E. specialize (IH t1). destruct (xbuf m en b t1) as [[o'| |] t2].
          + destruct IH as (vs & E' & HS). rewrite E'. exists (v :: vs). split; [reflexivity|]. rewrite Hv, HS. reflexivity.
          + destruct (eff_map T _ qs t1) as [[vs| |] t3]; try exact I. rewrite Hv, IH. reflexivity.
          + destruct (eff_map T _ qs t1) as [[vs| |] t3]; try exact I. rewrite Hv, IH. reflexivity.
        - destruct (piece_eff w T x en [] q t) as [[v| |] t2]; try exact I. destruct (eff_map T _ qs t2) as [[vs| |] t3]; try exact I. apply Hd.
        - destruct (piece_eff w T x en [] q t) as [[v| |] t2]; try exact I. destruct (eff_map T _ qs t2) as [[vs| |] t3]; try exact I. apply Hd. }
      assert (EV : forall r t, match bnd (xeval w T x en [] r) (fun v => opt (w_display w v)) t with
           | (Done o, t') => exists v, piece_eff w T x en [] (inr r) t = (Done v, t') /\ forall l, show_all w (v :: l) = let? s := show_all w l in Some (o ++ s)
           | _ => match piece_eff w T x en [] (inr r) t with (Done v, _) => forall l, show_all w (v :: l) = None | _ => True end end).
      { intros r t0. unfold piece_eff, EffSem.bnd, EffSem.opt, ebnd, pure. destruct (xeval w T x en [] r t0) as [[v| |] t1]; try exact I.
        destruct (w_display w v) as [o|] eqn:D; cbn [of_opt].
        - exists (ShVal w v). split; [reflexivity|]. intros l. cbn [show_all]. rewrite D. reflexivity.
        - intros l. cbn [show_all]. rewrite D. reflexivity. }
      destruct H as [s|e r wr E|r wr].
      - apply ST. intros t0. exists (ShText w s). split; reflexivity.
      - apply ST. intros t0. unfold EffSem.xshow. rewrite E. apply EV.
      - apply ST. intros t0. apply EV. }
    intros t. specialize (K t). unfold xpieces. change (eff_map T (fun p : str + rexpr => _)) with (eff_map T (piece_eff w T x en [])).
    unfold ebnd, pure. destruct (xbuf m en b t) as [[o| |] t'].
    - destruct K as (vs & E & HS). rewrite E, HS. reflexivity.
    - destruct (eff_map T _ qs t) as [[vs| |] t2]; try reflexivity. rewrite K. reflexivity.
    - destruct (eff_map T _ qs t) as [[vs| |] t2]; try reflexivity. rewrite K. reflexivity.
  Qed.
  Lemma flush_refines m b c en k : quiet_aliases m -> forallb counted_w b = true -> flushed inp m b c -> refines (write (xbuf m en b) (k en)) (xl c en k).
  Proof.
    intros Q HC (named & z & parts & named' & E & ->).
    apply (prepare_format_eff w T x en []) in E as (qs & HP & HX); [|exact Q|].
    2: { apply Forall_forall. intros i Hi. rewrite forallb_forall in HC. specialize (HC i Hi). destruct i as [s|e|r wr]; try exact I.
         cbn [counted_w] in HC. unfold counted in HC. apply orb_prop in HC as [HC|HC]; [right; apply negb_true_iff, HC|left; exact HC]. }
    assert (R : refines (write (xbuf m en b) (k en)) (write (xparts w T x en [] parts) (k en))).
    { apply refines_write; [|apply refines_refl]. eapply refines_trans; [apply pieces_refine; exact HP|]. apply refines_same. intros t. symmetry. apply HX. }
    eapply refines_trans; [exact R|]. destruct parts as [|s|f a]; cbn [parts_code EffSem.xlist EffSem.xstmt xparts]; try apply refines_refl.
    apply refines_same, write_nil.
  Qed.
  Lemma flush_flat m b c : flushed inp m b c -> forallb flat c = true.
  Proof. intros (named & z & parts & named' & E & ->). destruct parts; reflexivity. Qed.

  (** ** The invariant *)
  Record inv (m : chain) (b : list writable) (late bare : bool) : Prop := {
    iv_quiet : quiet_aliases m;
    iv_bare : bare = true -> forall k, ch_get m k = None;
    iv_lits : late = false -> all_lits b = true;
    iv_counted : forallb counted_w b = true
  }.
  Lemma inv_nil m late bare : quiet_aliases m -> (bare = true -> forall k, ch_get m k = None) -> inv m [] late bare.
  Proof. intros Q B. constructor; auto. Qed.
  Lemma inv_get m m' b late bare : (forall k, ch_get m' k = ch_get m k) -> inv m b late bare -> inv m' [] false bare.
  Proof. intros H [Q B _ _]. apply inv_nil; [exact (quiet_get _ _ H Q)|]. intros Hb k. rewrite H. exact (B Hb k). Qed.
  Lemma inv_target m b t p m' late : visit_target m true t = Ok (p, m') -> quiet_aliases m -> forallb counted_w b = true -> (late = false -> all_lits b = true) -> inv m' b late false.
  Proof. intros E Q C L. constructor; [exact (quiet_target _ _ _ _ _ E Q)|discriminate|exact L|exact C]. Qed.

  Definition PN (m : chain) (b : list writable) (n : tnode) (c : list stmt) (m' : chain) (b' : list writable) : Prop :=
    grows m m' /\ forall late bare late' bare', ordered late bare n = Some (late', bare') -> inv m b late bare ->
      inv m' b' late' bare' /\ (lets_nothing n = true -> m' = m /\ forallb flat c = true) /\
      forall en k, refines (write (xbuf m en b) (tmean n m en k)) (xl c en (fun en' => write (xbuf m' en' b') (k m' en'))).
  Definition PL (m : chain) (b : list writable) (l : list tnode) (c : list stmt) (m' : chain) (b' : list writable) : Prop :=
    grows m m' /\ forall late bare late' bare', ordered_list ordered late bare l = Some (late', bare') -> inv m b late bare ->
      inv m' b' late' bare' /\ (forallb lets_nothing l = true -> m' = m /\ forallb flat c = true) /\
      forall en k, refines (write (xbuf m en b) (tl l m en k)) (xl c en (fun en' => write (xbuf m' en' b') (k m' en'))).
  Definition branch_ok (bare : bool) (b : option cond_test * list tnode) : bool :=
    match b with (t, l) => fresh_list ordered (bare && match t with Some c => match ct_target c with None => true | _ => false end | None => true end) l end.
  Definition PB (m : chain) (bs : list (option cond_test * list tnode)) (rbs : list (rtest * list stmt)) (m' : chain) : Prop :=
    m' = m /\ forall bare, forallb (branch_ok bare) bs = true -> quiet_aliases m -> (bare = true -> forall k, ch_get m k = None) ->
      forall en, refines (tbranches w T x inp tmean m en bs) (xbranches w T x xstmt en rbs).
  Definition PA (m : chain) (bs : list (target * list tnode)) (rbs : list (target * list stmt)) (m' : chain) : Prop :=
    m' = m /\ (forallb (fun a : target * list tnode => match a with (_, l) => fresh_list ordered false l end) bs = true -> quiet_aliases m ->
      forall en v, refines (tarms w T tmean m en v bs) (xarms w T xstmt en v rbs)).

  Lemma body_refines m l c m' b' c' bare : PL m [] l c m' b' -> flushed inp m' b' c' -> fresh_list ordered bare l = true -> quiet_aliases m ->
    (bare = true -> forall k, ch_get m k = None) -> forall en g, refines (tl l m en (fun _ _ => g)) (xl (c ++ c') en (fun _ => g)).
  Proof.
    intros (_ & H) Fl HO Q B en g. unfold fresh_list in HO. destruct (ordered_list ordered false bare l) as [[late' bare']|] eqn:E; [|discriminate HO].
    destruct (H _ _ _ _ E (inv_nil m false bare Q B)) as (I' & _ & R). eapply refines_trans; [apply refines_same, same_sym, write_nil|].
    eapply refines_trans; [apply (R en (fun _ _ => g))|]. eapply refines_trans; [|apply xlist_app]. apply xlist_mono. intros en'.
    apply (flush_refines m' b' c' en' (fun _ => g)); [exact (iv_quiet _ _ _ _ I')|exact (iv_counted _ _ _ _ I')|exact Fl].
  Qed.
  Lemma block_refines m l c m' b' c' bare : PL m [] l c m' b' -> flushed inp m' b' c' -> fresh_list ordered bare l = true -> quiet_aliases m ->
    (bare = true -> forall k, ch_get m k = None) -> forall en, refines (tblock w T tmean l m en) (xblock w T xstmt (c ++ c') en).
  Proof. intros H1 H2 H3 H4 H5 en. apply (body_refines m l c m' b' c' bare H1 H2 H3 H4 H5). Qed.

  Lemma test_visit m t rt m' : test_code inp m t rt m' -> visit_test inp m t = Ok (rt, m') /\ grows m m' /\ (quiet_aliases m -> quiet_aliases m') /\
    (match t with Some c => match ct_target c with None => true | _ => false end | None => true end = true -> m' = m).
  Proof.
    unfold test_code, visit_test. destruct t as [c|]; [|intros [-> ->]; auto using grows_refl].
    destruct (ct_target c) as [p|].
    - assert (SI : forall e, (exists e' p', visit_expr_root inp m e = Ok e' /\ visit_target m true p = Ok (p', m') /\ rt = RIfLet p' e') ->
        (let! e' := visit_expr_root inp m e in let! (p', m') := visit_target m true p in Ok (RIfLet p' e', m')) = Ok (rt, m') /\ grows m m' /\
        (quiet_aliases m -> quiet_aliases m') /\ (false = true -> m' = m)).
      { intros e (e' & p' & E1 & E2 & ->). rewrite E1. cbn [rbind]. rewrite E2. split; [reflexivity|]. split; [exact (proj1 (grows_target _ _ _ _ _ E2))|].
        split; [exact (quiet_target _ _ _ _ _ E2)|discriminate]. }
      destruct (ct_expr c) as [| | | | | | | | | | | |op l r| | | | | | |]; try apply SI. destruct (str_eqb op (lit "||") || str_eqb op (lit "&&")); [|apply SI].
      intros (l' & p' & r' & E1 & E2 & E3 & ->). rewrite E1. cbn [rbind]. rewrite E2. cbn [rbind]. rewrite E3. split; [reflexivity|].
      split; [exact (proj1 (grows_target _ _ _ _ _ E2))|]. split; [exact (quiet_target _ _ _ _ _ E2)|discriminate].
    - intros (e' & E & -> & ->). rewrite E. split; [reflexivity|]. auto using grows_refl.
  Qed.
  Lemma push_none m : (forall k, ch_get m k = None) -> forall k, ch_get (ch_push m) k = None.
  Proof. intros H k. rewrite ch_get_push. apply H. Qed.
  Lemma quiet_push m : quiet_aliases m -> quiet_aliases (ch_push m).
  Proof. apply quiet_get. apply ch_get_push. Qed.
  Lemma ordered_texts ls : forall late bare, ordered_list ordered late bare (texts ls) = Some (late, bare).
  Proof. induction ls as [|s ls IH]; intros late bare; [reflexivity|]. cbn [texts map ordered_list ordered obind]. apply IH. Qed.
  Lemma ordered_app l l' : forall late bare, ordered_list ordered late bare (l ++ l') = let? (a, b) := ordered_list ordered late bare l in ordered_list ordered a b l'.
  Proof.
    induction l as [|n l IH]; intros late bare; [reflexivity|]. cbn [app ordered_list]. destruct (ordered late bare n) as [[a b]|]; [|reflexivity]. cbn [obind]. apply IH.
  Qed.
  Lemma loop_refines keep body body' l : (forall i f la v, refines (body i f la v) (body' i f la v)) -> refines (xloop w T keep body l) (xloop w T keep body' l).
  Proof.
    intros H. assert (R : forall l i cur, refines (xrounds w T keep body l i cur) (xrounds w T keep body' l i cur)).
    { clear l. induction l as [|v l IH]; intros i cur; cbn [xrounds]; [apply refines_bnd; [apply H|intros r; apply refines_refl]|].
      apply refines_bnd; [apply refines_refl|]. intros [|]; [|apply IH]. apply refines_bnd; [apply H|]. intros [s []]; cbn [fst snd]; try apply refines_refl;
        (apply refines_bnd; [apply IH|intros r; apply refines_refl]). }
    induction l as [|v l IH]; cbn [xloop]; [apply refines_refl|]. apply refines_bnd; [apply refines_refl|]. intros [|]; [|exact IH].
    apply refines_bnd; [apply R|]. intros r. apply refines_refl.
  Qed.
  Lemma xbuf_get m m' en b : (forall k, ch_get m' k = ch_get m k) -> same (xbuf m' en b) (xbuf m en b).
  Proof.
    intros H. induction b as [|i b IH]; [apply same_refl|]. cbn [xbuf]. apply same_bnd; [|intros s; apply same_bnd; [exact IH|intros s'; apply same_refl]].
    destruct i as [s|e|r wr]; try apply same_refl. unfold EffSem.xshow. rewrite (visit_ext inp m' m); [apply same_refl| |];
      intros; unfold same_res, ch_resolve; rewrite H; reflexivity.
  Qed.
  Lemma write_unset m en b : refines (write (xbuf m en b) (pure T Unset)) (pure T Unset).
  Proof. intros t. unfold EffSem.write, EffSem.bnd, ebnd, pure. destruct (xbuf m en b t) as [[s| |] t']; reflexivity. Qed.

  Lemma flush_then m b c c2 k (X : env -> act) : quiet_aliases m -> forallb counted_w b = true -> flushed inp m b c ->
    (forall en, refines (X en) (xl c2 en k)) -> forall en, refines (write (xbuf m en b) (X en)) (xl (c ++ c2) en k).
  Proof.
    intros Q C Fl H en. eapply refines_trans; [apply (flush_refines m b c en X Q C Fl)|]. eapply refines_trans; [|apply xlist_app]. apply xlist_mono. exact H.
  Qed.
  (** A statement after the flush; nothing is pending then *)
  Lemma flush_stmt m m' b c s k (X : env -> act) : quiet_aliases m -> forallb counted_w b = true -> flushed inp m b c ->
    (forall en, refines (X en) (xstmt s en (fun en' => k m' en'))) ->
    forall en, refines (write (xbuf m en b) (X en)) (xl (c ++ [s]) en (fun en' => write (xbuf m' en' []) (k m' en'))).
  Proof.
    intros Q C Fl H en. apply flush_then; try assumption. intros en'. cbn [EffSem.xlist]. eapply refines_trans; [apply H|].
    apply xstmt_mono. intros en2. apply refines_same, same_sym, write_nil.
  Qed.
  Lemma flat_one c s : forallb flat c = true -> flat s = true -> forallb flat (c ++ [s]) = true.
  Proof. intros H1 H2. rewrite forallb_app, H1. cbn [forallb]. rewrite H2. reflexivity. Qed.

  Lemma nil_order m b : PL m b [] [] m b.
  Proof.
    split; [apply grows_refl|]. intros late bare late' bare' E I. injection E as <- <-. split; [exact I|]. split; [split; reflexivity|]. intros en k. apply refines_refl.
  Qed.
  Lemma cons_order m b t c m1 b1 ts c' m2 b2 : PN m b t c m1 b1 -> PL m1 b1 ts c' m2 b2 -> PL m b (t :: ts) (c ++ c') m2 b2.
  Proof.
    intros (G1 & H1) (G2 & H2). split; [eapply grows_trans; eassumption|]. intros late bare late' bare' E I. cbn [ordered_list] in E.
    destruct (ordered late bare t) as [[la ba]|] eqn:E1; [|discriminate E]. cbn [obind] in E.
    destruct (H1 _ _ _ _ E1 I) as (I1 & F1 & R1). destruct (H2 _ _ _ _ E I1) as (I2 & F2 & R2). split; [exact I2|]. split.
    - cbn [forallb]. intros HL. apply andb_prop in HL as [HL1 HL2]. destruct (F1 HL1) as [-> X1]. destruct (F2 HL2) as [-> X2]. split; [reflexivity|].
      rewrite forallb_app, X1, X2. reflexivity.
    - intros en k. cbn [EffSem.tlist]. eapply refines_trans; [apply R1|]. eapply refines_trans; [|apply xlist_app]. apply xlist_mono. intros en'. apply R2.
  Qed.
  Lemma text_order m b s : PN m b (TText s) [] m (b ++ [WLit s]).
  Proof.
    split; [apply grows_refl|]. intros late bare late' bare' E I. injection E as <- <-. destruct I as [Q B L C]. split; [|split; [split; reflexivity|]].
    - constructor; auto.
      + intros Hl. unfold all_lits. rewrite forallb_app. specialize (L Hl). unfold all_lits in L. rewrite L. reflexivity.
      + rewrite forallb_app, C. reflexivity.
    - intros en k. apply refines_same. cbn [EffSem.xlist EffSem.tmean]. apply same_sym. eapply same_trans; [apply xbuf_app|]. apply same_write; [apply same_refl|].
      cbn [xbuf]. eapply same_trans; [apply write_cat|]. apply same_write; [apply same_refl|apply write_nil].
  Qed.
  Lemma expr_order m b e : PN m b (TExpr e) [] m (b ++ [WExpr e]).
  Proof.
    split; [apply grows_refl|]. intros late bare late' bare' E I. cbn [ordered] in E. destruct (counted e) eqn:Ce; [|discriminate E]. injection E as <- <-.
    destruct I as [Q B L C]. split; [|split; [split; reflexivity|]].
    - constructor; auto; [discriminate|]. rewrite forallb_app, C. cbn [forallb counted_w]. rewrite Ce. reflexivity.
    - intros en k. apply refines_same. cbn [EffSem.xlist EffSem.tmean]. apply same_sym. eapply same_trans; [apply xbuf_app|]. apply same_write; [apply same_refl|].
      cbn [xbuf]. eapply same_trans; [apply write_cat|]. apply same_write; [apply same_refl|apply write_nil].
  Qed.
  Lemma let_order m b t e r (sh : bool) c b1 p m' : visit_expr_root inp m e = Ok r -> is_shadowing_variable m t = Ok sh ->
    (if sh then flushed inp m b c /\ b1 = [] else c = [] /\ b1 = b) -> visit_target m true t = Ok (p, m') ->
    PN m b (TLet t (Some e)) (c ++ [let_stmt m sh t p r]) m' b1.
  Proof.
    intros VE SH FB VT. split; [exact (proj1 (grows_target _ _ _ _ _ VT))|]. intros late bare late' bare' E I. cbn [ordered] in E.
    destruct late; [discriminate E|]. injection E as <- <-. destruct I as [Q B L C]. specialize (L eq_refl). split; [|split; [discriminate|]].
    - eapply inv_target; [exact VT|exact Q| |]; destruct sh; destruct FB as [_ ->]; auto.
    - intros en k. cbn [EffSem.tmean]. rewrite VE. cbn [code_or]. rewrite VT. cbn [code_or].
      assert (HW : let_stmt m sh t p r = if waiting m t then SAssign p r else SLet p r).
      { unfold let_stmt, waiting. destruct t as [y| | | | | | | |]; cbn [is_name]; try (rewrite orb_true_r; reflexivity). cbn [is_shadowing_variable] in SH.
        destruct (ch_get m (norm y)) as [meta|]; injection SH as <-; destruct (ch_get m y) as [meta'|]; rewrite ?orb_true_r; cbn [orb]; try reflexivity.
        destruct (l_init meta); reflexivity. }
      rewrite HW. clear HW. destruct (waiting m t).
      + destruct sh.
        * destruct FB as [Fl ->]. apply (flush_then m b c _ _ (fun _ => pure T Unset) Q C Fl). intros en'. apply refines_refl.
        * destruct FB as [-> ->]. cbn [app EffSem.xlist EffSem.xstmt]. apply write_unset.
      + destruct sh.
        * destruct FB as [Fl ->]. apply (flush_stmt m m' b c _ k (fun en => bnd (xeval w T x en [] r) (fun v => bnd (opt (pmatch w p v)) (fun bs => k m' (bind_vals w bs en)))) Q C Fl).
          intros en'. apply refines_refl.
        * destruct FB as [-> ->]. cbn [app EffSem.xlist EffSem.xstmt]. apply refines_same.
          eapply same_trans; [apply same_write; [apply xbuf_lits, L|apply same_refl]|]. eapply same_trans; [apply write_later|]. apply same_bnd; [apply same_refl|]. intros v.
          eapply same_trans; [apply write_later|]. apply same_bnd; [apply same_refl|]. intros bs. apply same_write; [apply same_sym, xbuf_lits, L|apply same_refl].
  Qed.
  Lemma if_order m b c bs rbs m' : flushed inp m b c -> PB m bs rbs m' -> PN m b (TIf bs) (c ++ [SIf rbs]) m' [].
  Proof.
    intros Fl (-> & H). split; [apply grows_refl|]. intros late bare late' bare' E I. cbn [ordered] in E.
    destruct (forallb _ bs && _) eqn:HB; [|discriminate E]. injection E as <- <-. apply andb_prop in HB as [HB _]. destruct I as [Q B L C].
    split; [apply inv_nil; assumption|]. split; [intros _; split; [reflexivity|apply flat_one; [exact (flush_flat _ _ _ Fl)|reflexivity]]|].
    intros en k. apply (flush_stmt m m b c (SIf rbs) k (fun en => seq (tbranches w T x inp tmean m en bs) (k m en)) Q C Fl). intros en'. cbn [EffSem.xstmt].
    apply refines_seq; [|apply refines_refl]. exact (H bare HB Q B en').
  Qed.
  Lemma match_order m b c e r arms rarms m' : flushed inp m b c -> visit_expr_root inp m e = Ok r -> PA m arms rarms m' -> PN m b (TMatch e arms) (c ++ [SMatch r rarms]) m' [].
  Proof.
    intros Fl VE (-> & H). split; [apply grows_refl|]. intros late bare late' bare' E I. cbn [ordered] in E.
    destruct (forallb _ arms) eqn:HB; [|discriminate E]. injection E as <- <-. destruct I as [Q B L C].
    split; [apply inv_nil; assumption|]. split; [intros _; split; [reflexivity|apply flat_one; [exact (flush_flat _ _ _ Fl)|reflexivity]]|].
    intros en k. cbn [EffSem.tmean]. rewrite VE. cbn [code_or].
    apply (flush_stmt m m b c (SMatch r rarms) k (fun en => bnd (xeval w T x en [] r) (fun v => seq (tarms w T tmean m en v arms) (k m en))) Q C Fl). intros en'. cbn [EffSem.xstmt].
    apply refines_bnd; [apply refines_refl|]. intros v. apply refines_seq; [|apply refines_refl]. exact (H eq_refl Q en' v).
  Qed.
  Lemma branches_nil_order m : PB m [] [] m.
  Proof. split; [reflexivity|]. intros bare _ _ _ en. apply refines_refl. Qed.
  Lemma branches_cons_order m t rt m1 body c1 m2 b2 c2 m3 bs rbs m4 : test_code inp (ch_push m) t rt m1 -> PL m1 [] body c1 m2 b2 ->
    flushed inp m2 b2 c2 -> ch_pop m2 = Ok m3 -> PB m3 bs rbs m4 -> PB m ((t, body) :: bs) ((rt, c1 ++ c2) :: rbs) m4.
  Proof.
    intros TC HL Fl Pop (-> & HB). apply test_visit in TC as (VT & G & Q1 & SM). assert (m3 = m) as ->.
    { eapply pop_grows; [|exact Pop]. eapply grows_trans; [exact G|exact (proj1 HL)]. }
    split; [reflexivity|]. intros bare HO Q B en. cbn [forallb branch_ok] in HO. apply andb_prop in HO as [HO1 HO2]. cbn [tbranches xbranches]. rewrite VT. cbn [code_or].
    apply refines_bnd; [apply refines_refl|]. intros [en'|]; [|exact (HB bare HO2 Q B en)]. eapply block_refines; [exact HL|exact Fl|exact HO1|apply Q1, quiet_push, Q|].
    intros HT. apply andb_prop in HT as [HT1 HT2]. rewrite (SM HT2). apply push_none. exact (B HT1).
  Qed.
  Lemma arms_nil_order m : PA m [] [] m.
  Proof. split; [reflexivity|]. intros _ _ en v. apply refines_refl. Qed.
  Lemma arms_cons_order m t p m1 body c1 m2 b2 c2 m3 arms rarms m4 : visit_target (ch_push m) true t = Ok (p, m1) -> PL m1 [] body c1 m2 b2 ->
    flushed inp m2 b2 c2 -> ch_pop m2 = Ok m3 -> PA m3 arms rarms m4 -> PA m ((t, body) :: arms) ((p, c1 ++ c2) :: rarms) m4.
  Proof.
    intros VT HL Fl Pop (-> & HB). assert (m3 = m) as ->.
    { eapply pop_grows; [|exact Pop]. eapply grows_trans; [exact (proj1 (grows_target _ _ _ _ _ VT))|exact (proj1 HL)]. }
    split; [reflexivity|]. intros HO Q en v. cbn [forallb] in HO. apply andb_prop in HO as [HO1 HO2]. cbn [tarms xarms]. rewrite VT. cbn [code_or].
    destruct (pmatch w p v) as [bs|]; [|exact (HB HO2 Q en v)]. eapply block_refines; [exact HL|exact Fl|exact HO1| |discriminate].
    exact (quiet_target _ _ _ _ _ VT (quiet_push _ Q)).
  Qed.
  Lemma for_order m b c it r how t cnd flt m1 p m2 body c1 m3 b3 c1' m4 els c2 m5 b5 c2' m6 tail c3 m7 b7 c3' m8 has_else :
    visit_expr_root inp (ch_push m) it = Ok r -> flushed inp (ch_push m) b c ->
    match cnd with
    | None => flt = None /\ m1 = ch_push m
    | Some e => exists p0 mc e', visit_target (ch_push (ch_push m)) true t = Ok (p0, mc) /\ visit_expr_root inp mc e = Ok e' /\
                                 ch_pop mc = Ok m1 /\ flt = Some (p0, e')
    end ->
    visit_target (ch_push m1) true t = Ok (p, m2) -> PL m2 [] body c1 m3 b3 -> flushed inp m3 b3 c1' -> ch_pop m3 = Ok m4 ->
    PL (ch_push m4) [] els c2 m5 b5 -> flushed inp m5 b5 c2' -> ch_pop m5 = Ok m6 ->
    PL m6 [] tail c3 m7 b7 -> flushed inp m7 b7 c3' -> ch_pop m7 = Ok m8 -> (has_else = false -> els = [] /\ c2 ++ c2' = []) ->
    PN m b (TFor t it cnd body els tail) (c ++ [SLoop has_else r how flt p (c1 ++ c1') (c2 ++ c2') (c3 ++ c3')]) m8 [].
  Proof.
    intros VI Fl HF VT HB Fb P3 HE Fe P5 HT Ft P7 EL. assert (m1 = ch_push m /\ EffSem.visit_filter inp (ch_push (ch_push m)) t cnd = Ok flt) as [-> VF].
    { destruct cnd as [e|]; cbn [EffSem.visit_filter].
      - destruct HF as (p0 & mc & e' & E1 & E2 & E3 & ->). split; [|rewrite E1; cbn [rbind]; rewrite E2; reflexivity].
        eapply pop_grows; [exact (proj1 (grows_target _ _ _ _ _ E1))|exact E3].
      - destruct HF as [-> ->]. split; reflexivity. }
    assert (m4 = ch_push m) as -> by (eapply pop_grows; [eapply grows_trans; [exact (proj1 (grows_target _ _ _ _ _ VT))|exact (proj1 HB)]|exact P3]).
    assert (m6 = ch_push m) as -> by (eapply pop_grows; [exact (proj1 HE)|exact P5]).
    assert (m8 = m) as -> by (eapply pop_grows; [exact (proj1 HT)|exact P7]).
    split; [apply grows_refl|]. intros late bare late' bare' E I. cbn [ordered] in E. destruct (_ && _ && _) eqn:HC; [|discriminate E]. injection E as <- <-.
    apply andb_prop in HC as [HC HC3]. apply andb_prop in HC as [HC1 HC2]. destruct I as [Q B L C].
    split; [apply inv_nil; assumption|]. split; [intros _; split; [reflexivity|apply flat_one; [exact (flush_flat _ _ _ Fl)|reflexivity]]|].
    intros en k. cbn [EffSem.tmean]. rewrite VI. cbn [code_or]. rewrite VF. cbn [code_or]. rewrite VT. cbn [code_or].
    eapply refines_trans; [apply refines_write; [apply refines_same, (xbuf_get (ch_push m) m); intros; symmetry; apply ch_get_push|apply refines_refl]|].
    match goal with |- refines (write _ ?X) _ => match eval pattern en in X with ?f _ => set (F := f) end end.
    change (refines (write (xbuf (ch_push m) en b) (F en)) (xl (c ++ [SLoop has_else r how flt p (c1 ++ c1') (c2 ++ c2') (c3 ++ c3')]) en (fun en' => write (xbuf m en' []) (k m en')))).
    apply (flush_stmt (ch_push m) m b c _ k F (quiet_push _ Q) C Fl). intros en'. unfold F. cbn [EffSem.xstmt].
    apply refines_bnd; [apply refines_refl|]. intros v. apply refines_bnd; [apply refines_refl|]. intros items. apply refines_bnd.
    - apply loop_refines. intros i f la v'. apply refines_bnd; [apply refines_refl|]. intros bs. eapply block_refines; [exact HB|exact Fb|exact HC1| |discriminate].
      exact (quiet_target _ _ _ _ _ VT (quiet_push _ (quiet_push _ Q))).
    - intros [s did]. cbn [fst snd]. apply refines_write; [apply refines_refl|]. apply refines_seq; [|apply refines_seq; [|apply refines_refl]].
      + destruct did; [rewrite andb_false_r; apply refines_refl|]. destruct has_else; cbn [andb negb].
        * eapply block_refines; [exact HE|exact Fe|exact HC2|apply quiet_push, quiet_push, Q|]. intros HH. apply push_none, push_none. exact (B HH).
        * destruct (EL eq_refl) as [-> _]. apply refines_refl.
      + eapply block_refines; [exact HT|exact Ft|exact HC3|apply quiet_push, Q|]. intros HH. apply push_none. exact (B HH).
  Qed.
  Lemma block_order m b c body ls c1 m1 b1 c2 b2 : flushed inp m b c -> PL ch_empty [] body c1 m1 b1 ->
    (if ch_is_current_empty m1 then c2 = [] /\ b2 = b1 else flushed inp m1 b1 c2 /\ b2 = []) ->
    PN m b (TBlock (body ++ texts ls)) (c ++ c1 ++ c2) m (b2 ++ map WLit ls).
  Proof.
    intros Fl (_ & HB) HE. split; [apply grows_refl|]. intros late bare late' bare' E I. cbn [ordered] in E.
    destruct (bare && forallb lets_nothing (body ++ texts ls)) eqn:HC; [|discriminate E]. apply andb_prop in HC as [-> HN]. rewrite forallb_app in HN. apply andb_prop in HN as [HN _].
    rewrite ordered_app in E. destruct (ordered_list ordered false true body) as [[la ba]|] eqn:EO; [|discriminate E]. cbn [obind] in E. rewrite ordered_texts in E. cbn [obind] in E. injection E as <- <-.
    destruct I as [Q B L C]. specialize (B eq_refl).
    destruct (HB _ _ _ _ EO (inv_nil ch_empty false true ltac:(intros k meta r K; discriminate K) ltac:(intros _ k; reflexivity))) as (I1 & F1 & R1).
    destruct (F1 HN) as [-> X1]. cbn [ch_is_current_empty] in HE. destruct HE as [-> ->]. rewrite app_nil_r. destruct I1 as [Q1 B1 L1 C1].
    split; [|split].
    - constructor; [exact Q|intros _; exact B| |].
      + intros Hl. unfold all_lits in *. rewrite forallb_app, (L1 Hl). induction ls; [reflexivity|assumption].
      + rewrite forallb_app, C1. induction ls; [reflexivity|assumption].
    - intros _. split; [reflexivity|]. rewrite forallb_app, X1, (flush_flat _ _ _ Fl). reflexivity.
    - intros en k. cbn [EffSem.tmean].
      set (G := fun en : env => write (xbuf m en (map WLit ls)) (k m en)).
      assert (S1 : forall en, refines (seq (tblock w T tmean (body ++ texts ls) ch_empty en) (k m en)) (tl body ch_empty en (fun _ _ => G en))).
      { intros en'. apply refines_same. eapply same_trans; [apply tblock_seq|]. eapply same_trans; [apply tlist_app|]. apply tlist_ext. intros m' en2.
        eapply same_trans; [apply tlist_texts|]. apply same_write; [|apply same_refl]. apply same_sym.
        eapply same_trans; [apply xbuf_lits; clear; induction ls; [reflexivity|assumption]|]. intros t. clear. unfold EffSem.ret, pure. f_equal. f_equal.
        induction ls as [|s ls IH]; [reflexivity|]. cbn [map concat lits_text app] in *. f_equal; exact IH. }
      apply (flush_then m b c c1 _ (fun en => seq (tblock w T tmean (body ++ texts ls) ch_empty en) (k m en)) Q C Fl). intros en'.
      eapply refines_trans; [apply S1|]. eapply refines_trans; [apply refines_same, same_sym, write_nil|].
      eapply refines_trans; [apply (R1 en' (fun _ _ => G en'))|].
      eapply refines_trans; [|apply (flat_env c1 X1)]. eapply refines_trans; [apply (flat_env' c1 X1)|]. apply xlist_mono. intros _. apply refines_same.
      eapply same_trans; [apply same_write; [apply (xbuf_get m ch_empty); intros kk; rewrite B; reflexivity|apply same_refl]|].
      apply same_sym, xbuf_app.
  Qed.
  Lemma include_order m b c p body c1 m1 b1 c2 : flushed inp m b c -> PL (ch_with_parent m) [] body c1 m1 b1 -> flushed inp m1 b1 c2 ->
    PN m b (TInclude body) (c ++ [SIncludeBytes p] ++ c1 ++ c2) m [].
  Proof.
    intros Fl HB Fb. split; [apply grows_refl|]. intros late bare late' bare' E I. cbn [ordered] in E.
    destruct (forallb lets_nothing body && fresh_list ordered bare body) eqn:HC; [|discriminate E]. injection E as <- <-. apply andb_prop in HC as [HN HO].
    destruct I as [Q B L C]. assert (Q1 : quiet_aliases (ch_with_parent m)) by (apply (quiet_get m); [apply ch_get_parent|exact Q]).
    assert (B1 : bare = true -> forall k, ch_get (ch_with_parent m) k = None) by (intros Hb k; rewrite ch_get_parent; exact (B Hb k)).
    assert (X1 : forallb flat c1 = true).
    { destruct HB as (_ & HB). unfold fresh_list in HO. destruct (ordered_list ordered false bare body) as [[la ba]|] eqn:EO; [|discriminate HO].
      destruct (HB _ _ _ _ EO (inv_nil _ false bare Q1 B1)) as (_ & F1 & _). exact (proj2 (F1 HN)). }
    assert (X2 : forallb flat (c1 ++ c2) = true) by (rewrite forallb_app, X1, (flush_flat _ _ _ Fb); reflexivity).
    split; [apply inv_nil; assumption|]. split.
    - intros _. split; [reflexivity|]. rewrite forallb_app, (flush_flat _ _ _ Fl). cbn [app forallb flat andb]. exact X2.
    - intros en k. cbn [EffSem.tmean]. apply (flush_then m b c _ _ (fun en => seq (tblock w T tmean body (ch_with_parent m) en) (k m en)) Q C Fl). intros en'.
      cbn [app EffSem.xlist EffSem.xstmt]. eapply refines_trans; [apply refines_same, tblock_seq|].
      eapply refines_trans; [apply (body_refines _ _ _ _ _ _ bare HB Fb HO Q1 B1)|]. eapply refines_trans; [|apply (flat_env _ X2)]. apply xlist_mono. intros _.
      apply refines_same, same_sym, write_nil.
  Qed.
  Lemma macro_order m b c l body m1 names values c1 m2 b2 c2 m3 : flushed inp (ch_push m) b c -> bind_pairs inp (ch_push m) l = Ok (m1, names, values) ->
    PL m1 [] body c1 m2 b2 -> flushed inp m2 b2 c2 -> ch_pop m2 = Ok m3 -> PN m b (TMacro l body) (c ++ [SBlock (bind_code names values ++ c1 ++ c2)]) m3 [].
  Proof.
    intros Fl EB HB Fb Pop. assert (m3 = m) as ->.
    { eapply pop_grows; [|exact Pop]. eapply grows_trans; [exact (bind_grows inp l _ _ _ _ EB)|exact (proj1 HB)]. }
    split; [apply grows_refl|]. intros late bare late' bare' E I. cbn [ordered] in E.
    destruct (_ && _) eqn:HC; [|discriminate E]. injection E as <- <-. apply andb_prop in HC as [HA HO]. destruct I as [Q B L C].
    destruct (quiet_pairs inp l _ _ _ _ EB HA (quiet_push _ Q)) as [Q1 NV].
    split; [apply inv_nil; assumption|]. split; [intros _; split; [reflexivity|apply flat_one; [exact (flush_flat _ _ _ Fl)|reflexivity]]|].
    intros en k. cbn [EffSem.tmean]. rewrite EB. cbn [code_or].
    eapply refines_trans; [apply refines_write; [apply refines_same, (xbuf_get (ch_push m) m); intros; symmetry; apply ch_get_push|apply refines_refl]|].
    apply (flush_stmt (ch_push m) m b c _ k (fun en => bnd (eff_map T (xeval w T x en []) values) (fun vs => seq (tblock w T tmean body m1 (bind_vals w (combine names vs) en)) (k m en))) (quiet_push _ Q) C Fl).
    intros en'. cbn [EffSem.xstmt].
    assert (BR : forall en, refines (tblock w T tmean body m1 en) (xl (c1 ++ c2) en (fun _ => stop))).
    { intros e0. apply (block_refines m1 body c1 m2 b2 c2 false HB Fb HO Q1 ltac:(discriminate)). }
    eapply refines_trans; [apply refines_same, same_sym, seq_bnd|]. apply refines_seq; [|apply refines_refl]. unfold xblock.
    destruct names as [|n names].
    - rewrite (NV eq_refl). cbn [bind_code app eff_map combine]. eapply refines_trans; [|apply BR]. apply refines_refl.
    - cbn [bind_code app EffSem.xlist EffSem.xstmt]. apply refines_bnd; [apply refines_refl|]. intros vs. apply BR.
  Qed.
  Lemma jump_order m b c n s : flushed inp m b c -> (n = TBreak /\ s = SBreak \/ n = TContinue /\ s = SContinue) -> PN m b n (c ++ [s]) m [].
  Proof.
    intros Fl HJ. split; [apply grows_refl|]. intros late bare late' bare' E I. destruct I as [Q B L C].
    destruct HJ as [[-> ->]|[-> ->]]; injection E as <- <-; (split; [apply inv_nil; assumption|]);
      (split; [intros _; split; [reflexivity|apply flat_one; [exact (flush_flat _ _ _ Fl)|reflexivity]]|]); intros en k.
    - apply (flush_stmt m m b c SBreak k (fun _ => ret ([], Break)) Q C Fl). intros en'. apply refines_refl.
    - apply (flush_stmt m m b c SContinue k (fun _ => ret ([], Continue)) Q C Fl). intros en'. apply refines_refl.
  Qed.

  Theorem code_order : (forall m b ts c m' b', cg_list inp m b ts c m' b' -> PL m b ts c m' b').
  Proof.
    intros m b ts c m' b' H.
    apply (cg_ind inp (fun m b ts c m' b' _ => PL m b ts c m' b') (fun m b t c m' b' _ => PN m b t c m' b')
      (fun m bs rbs m' _ => PB m bs rbs m') (fun m bs rbs m' _ => PA m bs rbs m')); intros; try exact H.
    - apply nil_order.
    - eapply cons_order; eassumption.
    - apply text_order.
    - apply expr_order.
    - split; [eapply grows_target; eassumption|]. intros; discriminate.
    - eapply let_order; eassumption.
    - apply if_order; assumption.
    - eapply match_order; eassumption.
    - eapply for_order; eassumption.
    - eapply block_order; eassumption.
    - eapply include_order; eassumption.
    - eapply macro_order; eassumption.
    - split; [|intros; discriminate]. match goal with K : PL _ _ _ _ _ _ |- _ => destruct K as [K _] end. eapply grows_trans; [eassumption|]. eapply grows_insert; eassumption.
    - eapply jump_order; [eassumption|auto].
    - eapply jump_order; [eassumption|auto].
    - apply branches_nil_order.
    - eapply branches_cons_order; eassumption.
    - apply arms_nil_order.
    - eapply arms_cons_order; eassumption.
  Qed.
  Theorem render_order ts c1 c2 m' b' : in_order ts = true -> cg_list inp ch_empty [] ts c1 m' b' -> flushed inp m' b' c2 ->
    refines (xrender w T x inp ts) (xrun w T x (c1 ++ c2)).
  Proof.
    intros HO HC Fl. apply refines_bnd; [|intros r; apply refines_refl].
    eapply block_refines; [apply code_order; exact HC|exact Fl|exact HO|intros k meta r K; discriminate K|intros _ k; reflexivity].
  Qed.
End Order.

(** ** Such templates have nothing the generator leaves out. *)
Definition plain (n : tnode) : Prop := forall late bare r, ordered late bare n = Some r -> junk n = false.
Lemma plain_list l : Forall plain l -> forall late bare r, ordered_list ordered late bare l = Some r -> junks l = false.
Proof.
  induction 1 as [|n l Hn Hl IH]; intros late bare r E; [reflexivity|]. cbn [ordered_list] in E. destruct (ordered late bare n) as [[a b]|] eqn:E1; [|discriminate E].
  cbn [junks]. rewrite (Hn _ _ _ E1), (IH _ _ _ E). reflexivity.
Qed.
Lemma plain_fresh l bare : Forall plain l -> fresh_list ordered bare l = true -> junks l = false.
Proof. intros H E. unfold fresh_list in E. destruct (ordered_list ordered false bare l) as [r|] eqn:E1; [|discriminate E]. eapply plain_list; eassumption. Qed.
Lemma plain_in {A} (ok : A * list tnode -> bool) l : Forall (fun y => Forall plain (snd y)) l -> (forall a b, ok (a, b) = true -> exists bare, fresh_list ordered bare b = true) ->
  forallb ok l = true -> junks_in l = false.
Proof.
  intros H HK. induction H as [|[a b] l Hb Hl IH]; intros E; [reflexivity|]. cbn [forallb] in E. apply andb_prop in E as [E1 E2]. cbn [junks_in snd] in *.
  destruct (HK _ _ E1) as [bare E3]. rewrite (plain_fresh b bare Hb E3), (IH E2). reflexivity.
Qed.
Lemma ordered_plain n : plain n.
Proof.
  induction n using tnode_ind'; intros late bare r E; try reflexivity; cbn [ordered] in E; try discriminate E; checked E;
    repeat match goal with E : _ && _ = true |- _ => apply andb_prop in E as [? ?] end.
  - rewrite junk_if. destruct bs; [discriminate|]. cbn [length Nat.eqb orb]. eapply plain_in; [exact H| |eassumption]. intros a b K. eexists. exact K.
  - rewrite junk_match. eapply plain_in; [exact H| |eassumption]. intros a b K. eexists. exact K.
  - rewrite junk_for. repeat match goal with E : fresh_list _ _ ?l = true |- _ => rewrite (plain_fresh l _ ltac:(assumption) E); clear E end. reflexivity.
  - rewrite junk_block. destruct (ordered_list ordered false true b) as [r'|] eqn:E1; [|discriminate E]. eapply plain_list; eassumption.
  - rewrite junk_include. eapply plain_fresh; eassumption.
  - rewrite junk_macro. eapply plain_fresh; eassumption.
Qed.

Theorem build_order inp find fuel templates code z tns w T (x : effects w T) :
  build_template inp find fuel templates = GOk (code, z) -> f_block inp = None -> assemble inp find fuel templates = GOk tns ->
  in_order tns = true -> refines T (xrender w T x inp tns) (xrun w T x code).
Proof.
  intros EB HB EA HS. unfold build_template, assemble in *. destruct (build_contexts find templates) as [contexts| | |]; try discriminate EB. cbn [gbind] in *.
  destruct (get (f_path inp) contexts) as [ctx|]; [|discriminate EB]. rewrite HB in EB.
  assert (EH : exists her, (match c_blocks ctx, c_extends ctx with [], None => GOk None | _, _ => let* h := heritage_new fuel contexts ctx in GOk (Some h) end) = GOk her /\
    impl_template inp contexts find fuel her ctx = GOk (code, z)).
  { apply gbind_inv in EB as (her & E1 & E2). exists her. split; assumption. }
  destruct EH as (her & EH & EI). rewrite EH in EA. cbn [gbind] in EA. unfold impl_template in EI. cbv zeta in EA, EI.
  set (root := match her with Some h => h_root h | None => ctx end) in *.
  apply gbind_inv in EI as ([[code' z'] st'] & E1 & EI). assert (code' = code) as ->.
  { repeat (apply gbind_inv in EI as (? & _ & EI)). injection EI as -> _. reflexivity. }
  apply gbind_inv in EA as ([t wt] & E2 & EA). injection EA as <-.
  assert (AT : At (initial inp 2) ch_empty ws_init None []) by (constructor; cbn; rewrite ?HB; reflexivity).
  pose proof (expand_all inp contexts find fuel her root (c_nodes root) LTop _ _ _ _ _ _ _ _ AT E1) as HJ. cbn [top_level] in HJ. rewrite E2 in HJ.
  destruct HJ as [(y & Ey & c1 & c2 & m' & b' & -> & HC & Fl & _)|Bad].
  - injection Ey as <-. cbn [fst] in HC. eapply render_order; eassumption.
  - exfalso. specialize (Bad _ eq_refl). unfold badl in Bad. cbn [fst] in Bad.
    rewrite (plain_fresh t true) in Bad; [discriminate Bad| |exact HS]. apply Forall_forall. intros n _. apply ordered_plain.
Qed.
