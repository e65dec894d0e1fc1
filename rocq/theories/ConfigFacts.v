From Verif Require Import Base Utf8 Filters Ws Config.
From Coq Require Import ZArith ZifyBool ZifyNat ZifyN.
Local Open Scope N_scope.

Lemma rbind_Ok {A B} (r : res A) (k : A -> res B) b : rbind r k = Ok b -> exists a, r = Ok a /\ k a = Ok b.
Proof. destruct r; cbn; [eauto|discriminate|discriminate]. Qed.

(** ** Syntax *)
Definition delim_ok (s : str) : Prop :=
  (2 <= length (encode s))%nat /\ (forall c, In c s -> is_whitespace c = false) /\ ~ In s TWO_PLUS_CHAR_OPS.

Lemma check_delim_ok s : check_delim s = Ok tt <-> delim_ok s.
Proof.
  unfold check_delim, delim_ok. destruct (Nat.ltb_spec (length (encode s)) 2); [split; [discriminate|intros [? _]; lia]|].
  destruct (existsb is_whitespace s) eqn:E.
  - split; [discriminate|]. intros (_ & H2 & _). apply existsb_exists in E as (c & Hc & Hw). rewrite H2 in Hw; [discriminate|exact Hc].
  - destruct (mem_str s TWO_PLUS_CHAR_OPS) eqn:E2.
    + split; [discriminate|]. intros (_ & _ & H3). apply mem_str_In in E2. tauto.
    + split; [|reflexivity]. intros _. repeat split; [lia| |].
      * intros c Hc. destruct (is_whitespace c) eqn:Ew; [|reflexivity].
        assert (existsb is_whitespace s = true) by (apply existsb_exists; eauto). congruence.
      * intros Hin. apply mem_str_In in Hin. congruence.
Qed.
Lemma check_delims_ok l : check_delims l = Ok tt <-> Forall delim_ok l.
Proof.
  induction l as [|s l IH]; cbn; [split; auto|]. split.
  - intros H. apply rbind_Ok in H as ([] & H1 & H2). constructor; [apply check_delim_ok; exact H1|apply IH; exact H2].
  - intros H. inversion H as [|? ? H1 H2]; subst. apply check_delim_ok in H1. rewrite H1. cbn. apply IH. exact H2.
Qed.
Definition unrelated (a b : str) : Prop := forall r, a <> b ++ r /\ b <> a ++ r.
Lemma check_pairs_ok l : check_pairs l = Ok tt <-> Forall (fun p => unrelated (fst p) (snd p)) l.
Proof.
  induction l as [|[a b] l IH]; cbn; [split; auto|].
  destruct (starts_with b a) eqn:E1; cbn.
  - apply starts_with_iff in E1 as [r ->]. split; [discriminate|]. intros H. inversion H; subst. cbn in *. destruct (H2 r); congruence.
  - destruct (starts_with a b) eqn:E2; cbn.
    + apply starts_with_iff in E2 as [r ->]. split; [discriminate|]. intros H. inversion H; subst. cbn in *. destruct (H2 r); congruence.
    + rewrite IH. split; intros H.
      * constructor; [|exact H]. cbn. intros r. split; intros ->.
        -- assert (starts_with b (b ++ r) = true) by (apply starts_with_iff; eauto). congruence.
        -- assert (starts_with a (a ++ r) = true) by (apply starts_with_iff; eauto). congruence.
      * inversion H; assumption.
Qed.

Definition syntax_of (r : raw_syntax) : syntax :=
  {| block_start := unwrap_or (r_block_start r) (block_start default_syntax);
     block_end := unwrap_or (r_block_end r) (block_end default_syntax);
     expr_start := unwrap_or (r_expr_start r) (expr_start default_syntax);
     expr_end := unwrap_or (r_expr_end r) (expr_end default_syntax);
     comment_start := unwrap_or (r_comment_start r) (comment_start default_syntax);
     comment_end := unwrap_or (r_comment_end r) (comment_end default_syntax) |}.
Definition syntax_valid (s : syntax) : Prop :=
  Forall delim_ok [block_start s; block_end s; expr_start s; expr_end s; comment_start s; comment_end s] /\
  unrelated (block_start s) (expr_start s) /\ unrelated (block_start s) (comment_start s) /\ unrelated (expr_start s) (comment_start s).

Lemma try_into_correct r s : try_into r = Ok s <-> s = syntax_of r /\ syntax_valid s.
Proof.
  unfold try_into. fold (syntax_of r). set (t := syntax_of r). cbv zeta. split.
  - intros H. apply rbind_Ok in H as ([] & H1 & H). apply rbind_Ok in H as ([] & H2 & H). injection H as <-.
    apply check_delims_ok in H1. apply check_pairs_ok in H2. split; [reflexivity|]. split; [exact H1|].
    inversion H2 as [|? ? Ha Hb]; subst. inversion Hb as [|? ? Hc Hd]; subst. inversion Hd; subst. auto.
  - intros [-> (H1 & Ha & Hb & Hc)]. apply check_delims_ok in H1. rewrite H1. cbn [rbind].
    assert (H2 : check_pairs [(block_start t, expr_start t); (block_start t, comment_start t); (expr_start t, comment_start t)] = Ok tt).
    { apply check_pairs_ok. constructor; [exact Ha|]. constructor; [exact Hb|]. constructor; [exact Hc|]. constructor. }
    rewrite H2. reflexivity.
Qed.

(** Unrelated delimiters cannot both start at the same place. *)
Lemma unrelated_exclusive a b s : unrelated a b -> starts_with a s = true -> starts_with b s = true -> False.
Proof.
  intros Hu Ha Hb. apply starts_with_iff in Ha as [ra ->]. apply starts_with_iff in Hb as [rb Hb].
  revert b Hu Hb. induction a as [|x a IH]; intros b Hu Hb.
  - destruct (Hu b) as [_ H]. apply H. reflexivity.
  - destruct b as [|y b]; [destruct (Hu (x :: a)) as [H _]; apply H; reflexivity|].
    cbn in Hb. injection Hb as -> Hb. apply (IH b); [|exact Hb]. intros r. destruct (Hu r) as [H1 H2]. split; intros ->; [apply H1|apply H2]; reflexivity.
Qed.
Lemma syntax_unambiguous s t : syntax_valid s ->
  ~ (starts_with (block_start s) t = true /\ starts_with (expr_start s) t = true) /\
  ~ (starts_with (block_start s) t = true /\ starts_with (comment_start s) t = true) /\
  ~ (starts_with (expr_start s) t = true /\ starts_with (comment_start s) t = true).
Proof.
  intros (_ & H1 & H2 & H3). repeat split; intros [A B];
    [exact (unrelated_exclusive _ _ _ H1 A B)|exact (unrelated_exclusive _ _ _ H2 A B)|exact (unrelated_exclusive _ _ _ H3 A B)].
Qed.

(** Every syntax of an accepted configuration is valid. *)
Lemma assoc_In {A} k (l : list (str * A)) v : assoc k l = Some v -> In (k, v) l.
Proof.
  induction l as [|[k' v'] l IH]; cbn; [discriminate|]. destruct (str_eqb k k') eqn:E.
  - apply str_eqb_eq in E. intros [= ->]. left. congruence.
  - auto.
Qed.
Lemma default_valid : syntax_valid default_syntax.
Proof.
  split.
  - apply check_delims_ok. vm_compute. reflexivity.
  - assert (H : Forall (fun p => unrelated (fst p) (snd p)) [(block_start default_syntax, expr_start default_syntax);
      (block_start default_syntax, comment_start default_syntax); (expr_start default_syntax, comment_start default_syntax)]).
    { apply check_pairs_ok. vm_compute. reflexivity. }
    inversion H as [|? ? Ha Hb]; subst. inversion Hb as [|? ? Hc Hd]; subst. inversion Hd; subst. auto.
Qed.
Lemma add_syntaxes_valid l : forall m m', add_syntaxes l m = Ok m' -> (forall n s, In (n, s) m -> syntax_valid s) ->
  forall n s, In (n, s) m' -> syntax_valid s.
Proof.
  induction l as [|r l IH]; intros m m' H Hm; cbn in H; [injection H as <-; exact Hm|].
  apply rbind_Ok in H as (s & H1 & H2). destruct (assoc (r_name r) m); [discriminate|].
  apply (IH _ _ H2). intros n s' Hin. apply in_app_or in Hin as [Hin|[Hin|[]]]; [eapply Hm; eauto|].
  injection Hin as _ <-. apply try_into_correct in H1. tauto.
Qed.
Lemma config_syntaxes_valid rj raw tw c : config_new rj raw tw = Ok c ->
  forall n s, assoc n (syntaxes c) = Some s -> syntax_valid s.
Proof.
  intros H n s Hs. apply assoc_In in Hs. unfold config_new in H.
  apply rbind_Ok in H as (w & _ & H). apply rbind_Ok in H as (m & Hm & H).
  destruct (assoc _ m); [|discriminate]. injection H as <-. cbn in Hs.
  eapply add_syntaxes_valid; eauto. intros n' s' [[= <- <-]|[]]. apply default_valid.
Qed.
Lemma config_default_exists rj raw tw c : config_new rj raw tw = Ok c -> assoc (default_syntax_name c) (syntaxes c) <> None.
Proof.
  intros H. unfold config_new in H. apply rbind_Ok in H as (w & _ & H). apply rbind_Ok in H as (m & Hm & H).
  destruct (assoc _ m) eqn:E; [|discriminate]. injection H as <-. cbn [default_syntax_name syntaxes]. rewrite E. discriminate.
Qed.

(** ** Whitespace default *)
Definition documented_whitespace (attr : option handling) (file : option handling) : handling :=
  match attr with Some h => h | None => match file with Some h => h | None => Preserve end end.
Definition ws_name (h : handling) : str :=
  match h with Preserve => lit "preserve" | Suppress => lit "suppress" | Minimize => lit "minimize" end.
Lemma parse_whitespace_name h : parse_whitespace (ws_name h) = Ok h.
Proof. destruct h; reflexivity. Qed.
Lemma parse_whitespace_inv s h : parse_whitespace s = Ok h -> s = ws_name h.
Proof.
  unfold parse_whitespace. destruct (str_eqb s (lit "suppress")) eqn:E1; [intros [= <-]; apply str_eqb_eq; exact E1|].
  destruct (str_eqb s (lit "minimize")) eqn:E2; [intros [= <-]; apply str_eqb_eq; exact E2|].
  destruct (str_eqb s (lit "preserve")) eqn:E3; [intros [= <-]; apply str_eqb_eq; exact E3|discriminate].
Qed.
Lemma config_whitespace rj raw attr c : config_new rj raw (option_map ws_name attr) = Ok c ->
  whitespace c = documented_whitespace attr (let? g := raw_general raw in g_whitespace g).
Proof.
  intros H. unfold config_new in H. apply rbind_Ok in H as (w & Hw & H). apply rbind_Ok in H as (m & Hm & H).
  destruct (assoc _ m); [|discriminate]. injection H as <-. cbn.
  destruct attr as [h|]; cbn in *.
  - rewrite parse_whitespace_name in Hw. congruence.
  - injection Hw as <-. destruct (raw_general raw) as [g|]; cbn; [destruct (g_whitespace g)|]; reflexivity.
Qed.
Lemma config_bad_whitespace rj raw s : (forall h, s <> ws_name h) -> exists m, config_new rj raw (Some s) = Err m.
Proof.
  intros H. unfold config_new. destruct (parse_whitespace s) as [h|m|] eqn:E.
  - apply parse_whitespace_inv in E. destruct (H h E).
  - exists m. reflexivity.
  - unfold parse_whitespace in E. destruct (str_eqb s _); [discriminate|]. destruct (str_eqb s _); [discriminate|].
    destruct (str_eqb s _); discriminate.
Qed.

(** ** find_template *)
Section Fs.
  Variables (join : str -> str -> str) (with_file_name : str -> str -> str) (ex : str -> bool).
  (** Places to look, in order. *)
  Definition candidates (ds : list str) (path : str) (start : option str) : list str :=
    match start with Some r => [with_file_name r path] | None => [] end ++ map (fun d => join d path) ds.
  Definition first_existing (l : list str) (p : str) : Prop :=
    exists pre post, l = pre ++ p :: post /\ ex p = true /\ Forall (fun q => ex q = false) pre.

  Lemma find_dir_spec ds path : match find_dir join ex ds path with
    | Some p => first_existing (map (fun d => join d path) ds) p
    | None => Forall (fun q => ex q = false) (map (fun d => join d path) ds)
    end.
  Proof.
    induction ds as [|d ds IH]; cbn; [constructor|]. destruct (ex (join d path)) eqn:E.
    - exists [], (map (fun d => join d path) ds). auto.
    - destruct (find_dir join ex ds path) as [p|].
      + destruct IH as (pre & post & H1 & H2 & H3). exists (join d path :: pre), post. rewrite H1. auto.
      + constructor; auto.
  Qed.
  Lemma find_template_spec ds path start : match find_template join with_file_name ex ds path start with
    | Ok p => first_existing (candidates ds path start) p
    | Err _ => Forall (fun q => ex q = false) (candidates ds path start)
    | Panic => False
    end.
  Proof.
    unfold find_template, candidates. pose proof (find_dir_spec ds path) as Hd.
    destruct start as [r|]; cbn [app].
    - destruct (ex (with_file_name r path)) eqn:E.
      + exists [], (map (fun d => join d path) ds). auto.
      + destruct (find_dir join ex ds path) as [p|]; [|constructor; auto].
        destruct Hd as (pre & post & H1 & H2 & H3). exists (with_file_name r path :: pre), post. rewrite H1. auto.
    - destruct (find_dir join ex ds path) as [p|]; exact Hd.
  Qed.
End Fs.

(** ** Source files *)
Lemma last_opt_app {A} (l : list A) x : last_opt (l ++ [x]) = Some x.
Proof. induction l as [|y l IH]; [reflexivity|]. cbn. destruct (l ++ [x]) eqn:E; [destruct l; discriminate|]. exact IH. Qed.
Lemma get_source_newline s : get_template_source (s ++ [10]) = s.
Proof. unfold get_template_source. rewrite last_opt_app. cbn. apply removelast_last. Qed.
Lemma get_source_other s : (forall t, s <> t ++ [10]) -> get_template_source s = s.
Proof.
  intros H. unfold get_template_source. destruct (last_opt s) as [c|] eqn:E; [|reflexivity].
  destruct (N.eqb_spec c 10) as [->|]; [|reflexivity]. exfalso.
  destruct (exists_last (l := s)) as (t & x & Hs); [intros ->; discriminate|].
  rewrite Hs, last_opt_app in E. injection E as ->. exact (H t Hs).
Qed.

(** ** Extensions *)
Definition no_dot (s : str) : Prop := Forall (fun c => c <> 46) s.
Lemma rsplit_nodot s : no_dot s -> rsplit_dot s = (None, s).
Proof. induction 1 as [|c s Hc Hs IH]; [reflexivity|]. cbn. rewrite IH. destruct (N.eqb_spec c 46); [congruence|reflexivity]. Qed.
Lemma rsplit_dot_app b e : no_dot e -> rsplit_dot (b ++ 46 :: e) = (Some b, e).
Proof.
  intros H. induction b as [|c b IH]; cbn.
  - rewrite rsplit_nodot by exact H. reflexivity.
  - rewrite IH. reflexivity.
Qed.
Lemma dotdot_not b e : no_dot e -> b <> [] -> e <> [] -> str_eqb (b ++ 46 :: e) (lit "..") = false.
Proof.
  intros He Hb Hn. apply str_eqb_neq. intros E. destruct b as [|x [|y b]]; [congruence| |].
  - cbn in E. injection E as _ E. destruct e; [congruence|discriminate].
  - cbn in E. injection E as _ _ E. destruct b; discriminate.
Qed.
Lemma path_ext b e : no_dot e -> e <> [] -> b <> [] -> path_extension (Some (b ++ 46 :: e)) = Some e /\ path_file_stem (Some (b ++ 46 :: e)) = Some b.
Proof.
  intros He Hn Hb. unfold path_extension, path_file_stem, rsplit_file_at_dot. cbn [obind].
  rewrite dotdot_not, rsplit_dot_app by assumption. destruct b; [congruence|]. auto.
Qed.
Lemma extension_plain b e : no_dot e -> e <> [] -> b <> [] -> ~ In e JINJA_EXTENSIONS ->
  extension (Some (b ++ 46 :: e)) = Some e.
Proof.
  intros He Hn Hb Hj. unfold extension. destruct (path_ext b e He Hn Hb) as [-> _]. cbn [obind].
  destruct (mem_str e JINJA_EXTENSIONS) eqn:E; [|reflexivity]. apply mem_str_In in E. tauto.
Qed.
Lemma file_name_ok s : s <> [] -> s <> lit "." -> s <> lit ".." -> file_name s = Some s.
Proof.
  intros H1 H2 H3. unfold file_name. destruct s; [congruence|].
  apply str_eqb_neq in H2. apply str_eqb_neq in H3. rewrite H2, H3. reflexivity.
Qed.
Lemma extension_jinja b e j : no_dot e -> e <> [] -> b <> [] -> In j JINJA_EXTENSIONS ->
  extension (Some (b ++ 46 :: e ++ 46 :: j)) = Some e.
Proof.
  intros He Hn Hb Hj.
  assert (Hjd : no_dot j /\ j <> []).
  { cbn in Hj. repeat (destruct Hj as [<-|Hj]; [split; [repeat constructor; discriminate|discriminate]|]). destruct Hj. }
  destruct Hjd as [Hjd Hjn].
  unfold extension. replace (b ++ 46 :: e ++ 46 :: j) with ((b ++ 46 :: e) ++ 46 :: j) by (rewrite <- app_assoc; reflexivity).
  destruct (path_ext (b ++ 46 :: e) j Hjd Hjn) as [-> ->]; [destruct b; discriminate|]. cbn [obind].
  destruct (mem_str j JINJA_EXTENSIONS) eqn:E; [|apply mem_str_In in Hj; congruence].
  rewrite file_name_ok; [| destruct b; discriminate | |].
  - destruct (path_ext b e He Hn Hb) as [-> _]. reflexivity.
  - intros H. apply (f_equal (@length _)) in H. rewrite app_length in H. cbn in H. destruct b; [congruence|cbn in H; lia].
  - intros H. pose proof (dotdot_not b e He Hb Hn) as Hd. rewrite H in Hd. discriminate.
Qed.
Lemma extension_jinja_only b j : no_dot b -> b <> [] -> In j JINJA_EXTENSIONS -> extension (Some (b ++ 46 :: j)) = Some j.
Proof.
  intros Hd Hb Hj.
  assert (Hjd : no_dot j /\ j <> []).
  { cbn in Hj. repeat (destruct Hj as [<-|Hj]; [split; [repeat constructor; discriminate|discriminate]|]). destruct Hj. }
  destruct Hjd as [Hjd Hjn]. unfold extension. destruct (path_ext b j Hjd Hjn Hb) as [-> ->]. cbn [obind].
  destruct (mem_str j JINJA_EXTENSIONS) eqn:E; [|apply mem_str_In in Hj; congruence].
  rewrite file_name_ok.
  - unfold path_extension, rsplit_file_at_dot. cbn [obind].
    assert (str_eqb b (lit "..") = false) as ->.
    { apply str_eqb_neq. intros ->. inversion Hd; congruence. }
    rewrite rsplit_nodot by exact Hd. reflexivity.
  - exact Hb.
  - intros ->. inversion Hd; congruence.
  - intros ->. inversion Hd; congruence.
Qed.

(** ** Escapers *)
Lemma find_escaper_spec e l : match find_escaper e l with
  | Some p => exists pre exts post, l = pre ++ (exts, p) :: post /\ In e exts /\ Forall (fun x => ~ In e (fst x)) pre
  | None => Forall (fun x => ~ In e (fst x)) l
  end.
Proof.
  induction l as [|[exts p] l IH]; cbn; [constructor|]. destruct (mem_str e exts) eqn:E.
  - apply mem_str_In in E. exists [], exts, l. auto.
  - assert (Hn : ~ In e exts) by (intros H; apply mem_str_In in H; congruence).
    destruct (find_escaper e l) as [q|].
    + destruct IH as (pre & ex & post & -> & H1 & H2). exists ((exts, p) :: pre), ex, post. auto.
    + constructor; auto.
Qed.
Lemma input_escaper join wfn ex name_of ident cfg a i : template_input_new join wfn ex name_of ident cfg a = Ok i ->
  let key := match a_escaping a with Some e => e | None => unwrap_or (path_extension (name_of (i_path i))) [] end in
  exists pre exts post, escapers cfg = pre ++ (exts, i_escaper i) :: post /\ In key exts /\ Forall (fun x => ~ In key (fst x)) pre.
Proof.
  unfold template_input_new. destruct (a_source a) as [src|]; [|discriminate]. intros H.
  apply rbind_Ok in H as (path & _ & H). apply rbind_Ok in H as (syn & _ & H). cbv zeta in H.
  match type of H with context [find_escaper ?k ?l] => pose proof (find_escaper_spec k l) as Hs; destruct (find_escaper k l) as [esc|] end;
    [|discriminate]. injection H as <-. exact Hs.
Qed.
Lemma input_mime join wfn ex name_of ident cfg a i b e suf : template_input_new join wfn ex name_of ident cfg a = Ok i ->
  a_ext a = None -> name_of (i_path i) = Some (b ++ 46 :: e ++ suf) -> no_dot e -> e <> [] -> b <> [] ->
  (suf = [] /\ ~ In e JINJA_EXTENSIONS \/ exists j, suf = 46 :: j /\ In j JINJA_EXTENSIONS) -> i_mime_ext i = e.
Proof.
  unfold template_input_new. destruct (a_source a) as [src|]; [|discriminate]. intros H Hx Hn He Hne Hb Hsuf.
  apply rbind_Ok in H as (path & _ & H). apply rbind_Ok in H as (syn & _ & H). cbv zeta in H.
  destruct (find_escaper _ _); [|discriminate]. injection H as <-. cbn [i_path i_mime_ext] in *. rewrite Hx, Hn. unfold ext_default_to_path.
  destruct Hsuf as [[-> Hj]|(j & -> & Hj)].
  - rewrite app_nil_r, extension_plain by assumption. reflexivity.
  - rewrite extension_jinja by assumption. reflexivity.
Qed.
Lemma input_no_escaper join wfn ex name_of ident cfg a p : a_escaping a = None -> a_source a = Some (SPath p) ->
  forall q, find_template join wfn ex (dirs cfg) p None = Ok q ->
  Forall (fun x => ~ In (unwrap_or (path_extension (name_of q)) []) (fst x)) (escapers cfg) ->
  forall i, template_input_new join wfn ex name_of ident cfg a <> Ok i.
Proof.
  intros He Hs q Hq Hn i H. pose proof (input_escaper _ _ _ _ _ _ _ _ H) as Hi. cbv zeta in Hi. rewrite He in Hi.
  unfold template_input_new in H. rewrite Hs in H. rewrite Hq in H. cbn [rbind] in H.
  apply rbind_Ok in H as (syn & _ & H). cbv zeta in H. destruct (find_escaper _ _); [|discriminate]. injection H as <-.
  cbn [i_path i_escaper] in Hi. destruct Hi as (pre & exts & post & E & Hin & _). rewrite E in Hn. apply Forall_app in Hn as [_ Hn].
  inversion Hn; subst. cbn in *. tauto.
Qed.
Lemma config_escapers rj raw tw c : config_new rj raw tw = Ok c ->
  escapers c = map (fun e => (re_extensions e, re_path e)) (unwrap_or (raw_escapers raw) []) ++ DEFAULT_ESCAPERS.
Proof.
  intros H. unfold config_new in H. apply rbind_Ok in H as (w & _ & H). apply rbind_Ok in H as (m & _ & H).
  destruct (assoc _ m); [|discriminate]. injection H as <-. reflexivity.
Qed.

(** ** Attributes *)
Definition is_source_item (m : meta) : bool :=
  match m with MNameValue (Some k) _ => str_eqb k (lit "path") || str_eqb k (lit "source") | _ => false end.
Definition known_keys : list str :=
  [lit "path"; lit "source"; lit "block"; lit "print"; lit "escape"; lit "ext"; lit "syntax"; lit "config"; lit "whitespace"].

Ltac key_case H := match type of H with context [str_eqb ?k ?l] => destruct (str_eqb k l) end.

Lemma set_arg_source item a a' : set_arg item a = Ok a' ->
  (is_source_item item = false /\ a_source a' = a_source a) \/
  (is_source_item item = true /\ a_source a = None /\
     exists s, (item = MNameValue (Some (lit "path")) (VStr s) /\ a_source a' = Some (SPath s)) \/
               (item = MNameValue (Some (lit "source")) (VStr s) /\ a_source a' = Some (SSource s))).
Proof.
  destruct item as [[k|] v|]; cbn [set_arg is_source_item]; try discriminate.
  destruct v as [s| |]; try discriminate.
  - destruct (str_eqb k (lit "path")) eqn:E1.
    + apply str_eqb_eq in E1. subst k. cbn. destruct (a_source a) eqn:Es; [discriminate|]. intros [= <-]. right. cbn. eauto 10.
    + destruct (str_eqb k (lit "source")) eqn:E2.
      * apply str_eqb_eq in E2. subst k. cbn. destruct (a_source a) eqn:Es; [discriminate|]. intros [= <-]. right. cbn. eauto 10.
      * intros H. left. split; [reflexivity|]. cbn [str_value rbind] in H.
        repeat (key_case H; [try (injection H as <-; reflexivity)|]); try discriminate.
        apply rbind_Ok in H as (p & _ & H). injection H as <-. reflexivity.
  - cbn [str_value rbind]. intros H. repeat (key_case H; [discriminate H|]). discriminate H.
Qed.

Lemma set_args_source items : forall a a', set_args items a = Ok a' ->
  match a_source a with
  | Some _ => filter is_source_item items = [] /\ a_source a' = a_source a
  | None => match filter is_source_item items with
            | [] => a_source a' = None
            | [m] => exists s, (m = MNameValue (Some (lit "path")) (VStr s) /\ a_source a' = Some (SPath s)) \/
                               (m = MNameValue (Some (lit "source")) (VStr s) /\ a_source a' = Some (SSource s))
            | _ => False
            end
  end.
Proof.
  induction items as [|m items IH]; intros a a' H; cbn [set_args] in H.
  - injection H as <-. cbn. destruct (a_source a); auto.
  - apply rbind_Ok in H as (b & H1 & H2). specialize (IH _ _ H2). apply set_arg_source in H1. cbn [filter].
    destruct H1 as [[Hf Hs]|[Ht [Hn (s & Hs)]]].
    + rewrite Hf. rewrite Hs in IH. exact IH.
    + rewrite Ht, Hn. destruct Hs as [[-> Hs]|[-> Hs]]; rewrite Hs in IH; destruct IH as [IH1 IH2]; rewrite IH1; eauto.
Qed.

Lemma args_source attrs a : template_args_new attrs = Ok a ->
  exists items, attrs = [Some items] /\
    match filter is_source_item items with
    | [] => a_source a = None
    | [m] => exists s, (m = MNameValue (Some (lit "path")) (VStr s) /\ a_source a = Some (SPath s)) \/
                       (m = MNameValue (Some (lit "source")) (VStr s) /\ a_source a = Some (SSource s))
    | _ => False
    end.
Proof.
  unfold template_args_new. intros H. apply rbind_Ok in H as (f & H1 & H2).
  destruct f as [items|]; [|discriminate]. exists items. split.
  - destruct attrs as [|[x|] attrs]; cbn in H1; try discriminate.
    destruct attrs as [|[y|] attrs]; cbn in H1; try discriminate. injection H1 as ->. reflexivity.
  - apply (set_args_source items no_args a H2).
Qed.

Lemma unknown_key k v items1 items2 : ~ In k known_keys ->
  forall a, exists r, set_args (items1 ++ MNameValue (Some k) v :: items2) a = r /\ (forall b, r <> Ok b).
Proof.
  intros Hk. induction items1 as [|m items1 IH]; intros a; cbn [app set_args].
  - eexists; split; [reflexivity|]. intros b Hb. apply rbind_Ok in Hb as (c & Hc & _).
    assert (N : forall l, In l known_keys -> str_eqb k l = false).
    { intros l Hl. apply str_eqb_neq. intros ->. tauto. }
    unfold set_arg in Hc. rewrite !N in Hc by (cbn; tauto). destruct v; discriminate.
  - destruct (set_arg m a) as [b|e|]; cbn [rbind].
    + apply IH.
    + eexists; split; [reflexivity|]. discriminate.
    + eexists; split; [reflexivity|]. discriminate.
Qed.

(** ** strip_common *)
Lemma drop_common_inside base rest : drop_common base (base ++ rest) = Some rest.
Proof. induction base as [|b base IH]; cbn; [reflexivity|]. rewrite str_eqb_refl. exact IH. Qed.
Lemma strip_common_inside base rest : rest <> [] -> strip_common base (base ++ rest) = rest.
Proof. intros H. unfold strip_common. rewrite drop_common_inside. destruct rest; [congruence|reflexivity]. Qed.
Lemma strip_common_same base : strip_common base base = base.
Proof.
  unfold strip_common. pose proof (drop_common_inside base []) as H. rewrite app_nil_r in H. rewrite H. reflexivity.
Qed.
(** The shown components are always a non-empty suffix of the path (if the path is not empty). *)
Lemma drop_common_suffix base : forall path r, drop_common base path = Some r -> exists p, path = p ++ r.
Proof.
  induction base as [|b base IH]; intros path r H; cbn in H; [injection H as <-; exists []; reflexivity|].
  destruct path as [|x path]; [discriminate|]. destruct (str_eqb b x).
  - destruct (IH _ _ H) as [p ->]. exists (x :: p). reflexivity.
  - injection H as <-. exists []. reflexivity.
Qed.
Lemma strip_common_suffix base path : exists p, path = p ++ strip_common base path.
Proof.
  unfold strip_common. destruct (drop_common base path) as [[|y r]|] eqn:E; [exists []; reflexivity| |exists []; reflexivity].
  apply drop_common_suffix in E. exact E.
Qed.

(** ** The built-in escapers, spelled out *)
Definition builtin_escapers : list (str * str) :=
  [(lit "html", lit "::askama::Html"); (lit "htm", lit "::askama::Html"); (lit "svg", lit "::askama::Html"); (lit "xml", lit "::askama::Html");
   (lit "j2", lit "::askama::Html"); (lit "jinja", lit "::askama::Html"); (lit "jinja2", lit "::askama::Html");
   (lit "md", lit "::askama::Text"); (lit "none", lit "::askama::Text"); (lit "txt", lit "::askama::Text"); (lit "typ", lit "::askama::Text");
   (lit "yml", lit "::askama::Text"); ([], lit "::askama::Text")].
Lemma builtin_escapers_spec k e : find_escaper k DEFAULT_ESCAPERS = Some e <-> In (k, e) builtin_escapers.
Proof.
  unfold DEFAULT_ESCAPERS, builtin_escapers. cbn [find_escaper]. split.
  - destruct (mem_str k _) eqn:E1; [|clear E1; destruct (mem_str k _) eqn:E1; [|clear E1; destruct (mem_str k _) eqn:E1; [|discriminate]]];
      intros H; apply (f_equal (fun o => match o with Some x => x | None => e end)) in H; cbv beta iota in H; subst e;
      apply mem_str_In in E1; cbn [In] in E1; repeat (destruct E1 as [<-|E1]; [cbn [In]; auto 20|]); destruct E1.
  - cbn [In]. intros H. repeat (destruct H as [H|H]; [apply pair_equal_spec in H as [<- <-]; vm_compute; reflexivity|]). destruct H.
Qed.
(** Names without a dot, except perhaps at the start, have no extension. *)
Lemma extension_none s : no_dot s -> extension (Some s) = None.
Proof.
  intros H. unfold extension, path_extension, rsplit_file_at_dot. cbn [obind]. destruct (str_eqb s (lit "..")); [reflexivity|].
  rewrite (rsplit_nodot s H). reflexivity.
Qed.
Lemma extension_hidden s : no_dot s -> extension (Some (46 :: s)) = None.
Proof.
  intros H. unfold extension, path_extension, rsplit_file_at_dot. cbn [obind]. destruct (str_eqb (46 :: s) (lit "..")); [reflexivity|].
  cbn [rsplit_dot]. rewrite (rsplit_nodot s H). reflexivity.
Qed.
