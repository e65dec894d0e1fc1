(** * Generated code does not depend on where the project lies: C69.  No definition here models code in /repo. *)
From Coq Require Import ZArith.
From Verif Require Import Base Ws Config Ast ParseNode GenExpr Heritage Gen Sem HeritageSpec HeritageFacts EndFacts TreeSpec GenText Derive MoveSpec MoveGen MoveFacts.
Local Open Scope N_scope.

(** C69.  Templates at other places, looked up from there: the same code, size hint or error.  Only [include_bytes!] names other files.
    [find']: the lookup at the new place, for the names in the templates and the paths of the templates. *)
Theorem C69_code mv find find' inp fuel templates : (forall p q, mv p = mv q -> p = q) -> In (f_path inp) (map fst templates) ->
  (forall path ns name from, In (path, ns) templates -> mentions ns name -> In from (map fst templates) -> find' name (mv from) = moved_path mv (find name from)) ->
  build_template (moved_input mv inp) find' fuel (moved_templates mv templates) =
  gmap (fun x => (moved_code mv (fst x), snd x)) (build_template inp find fuel templates).
Proof.
  intros inj HP HF. apply (build_mv mv inj (fun name => exists path ns, In (path, ns) templates /\ mentions ns name) (fun p => In p (map fst templates))).
  - exact HP.
  - intros p from (path & ns & H1 & H2) H3. eapply HF; eassumption.
  - intros p ns H. split; [apply in_map_iff; exists (p, ns); auto|]. apply mentions_good. intros q K. eauto.
Qed.
Print Assumptions C69_code.
(** C69.  The moved code writes the same. *)
Theorem C69_output mv w code : run w (moved_code mv code) = run w code.
Proof. apply run_mv. Qed.
Print Assumptions C69_output.

(** C69.  A template that uses no other one: neither its own path nor the lookup matters, so it may as well be given in the attribute. *)
Theorem C69_alone inp find find' fuel ns q : (forall n, ~ mentions ns n) ->
  build_template {| f_escaper := f_escaper inp; f_escapers := f_escapers inp; f_json := f_json inp; f_ws := f_ws inp; f_block := f_block inp; f_path := q |} find' fuel [(q, ns)] =
  gmap (fun x => (moved_code (exchanged (f_path inp) q) (fst x), snd x)) (build_template inp find fuel [(f_path inp, ns)]).
Proof.
  intros H. set (mv := exchanged (f_path inp) q).
  assert (EQ : mv (f_path inp) = q) by (subst mv; unfold exchanged; rewrite str_eqb_refl; reflexivity).
  rewrite <- (C69_code mv find find' inp fuel [(f_path inp, ns)]).
  - unfold moved_input, moved_templates. cbn [map fst snd]. rewrite EQ. reflexivity.
  - assert (T : forall x, mv (mv x) = x).
    { intros x. subst mv. unfold exchanged. destruct (str_eqb x (f_path inp)) eqn:E1.
      - apply str_eqb_eq in E1. destruct (str_eqb q (f_path inp)) eqn:E2; [apply str_eqb_eq in E2; congruence|]. rewrite str_eqb_refl. congruence.
      - destruct (str_eqb x q) eqn:E2; [rewrite str_eqb_refl; apply str_eqb_eq in E2; congruence|]. rewrite E1, E2. reflexivity. }
    intros x y E. rewrite <- (T x), <- (T y), E. reflexivity.
  - left. reflexivity.
  - intros path ms n from [[= <- <-]|[]] K. destruct (H _ K).
Qed.
Print Assumptions C69_alone.

(** ** The whole macro *)
Section Project.
  Variables (mv : str -> str) (rel home file : str -> Prop) (w w' : outside).
  Hypothesis inj : forall p q, mv p = mv q -> p = q.
  Hypothesis M : moved_world mv rel home file w w'.
  Variable d : item.
  Hypothesis R : all_relative mv rel file w d.
  Lemma read_config_moved a : template_args_new (d_attrs d) = Ok a -> read_config_file w' (a_config a) = read_config_file w (a_config a).
  Proof.
    intros E. unfold read_config_file. rewrite (m_root _ _ _ _ _ _ M). destruct (o_root w) as [r|] eqn:ER; cbn [option_map]; [|reflexivity]. cbv zeta.
    assert (K : rel (unwrap_or (a_config a) CONFIG_FILE_NAME)). { destruct (a_config a) as [c|] eqn:EC; cbn [unwrap_or]; [eapply (r_config _ _ _ _ _ R); eassumption|apply (r_toml _ _ _ _ _ R)]. }
    destruct (m_join _ _ _ _ _ _ M r _ (m_home _ _ _ _ _ _ M r ER) K) as [-> _]. rewrite (m_exists _ _ _ _ _ _ M), (m_read _ _ _ _ _ _ M). reflexivity.
  Qed.
  Definition mcfg (c : config) : config :=
    {| dirs := map mv (dirs c); syntaxes := syntaxes c; default_syntax_name := default_syntax_name c; escapers := escapers c; Config.whitespace := Config.whitespace c |}.
  Lemma config_moved toml tw : config_of w' toml tw = rmap mcfg (config_of w toml tw) /\ forall c, config_of w toml tw = Ok c -> Forall home (dirs c).
  Proof.
    unfold config_of. rewrite (m_root _ _ _ _ _ _ M). destruct (o_root w) as [r|] eqn:ER; cbn [option_map]; [|split; [reflexivity|discriminate]]. pose proof (m_home _ _ _ _ _ _ M r ER) as HR.
    assert (K : forall raw, (raw = empty_config \/ o_toml w toml = Some raw) -> config_new (o_join w' (mv r)) raw tw = rmap mcfg (config_new (o_join w r) raw tw) /\ forall c, config_new (o_join w r) raw tw = Ok c -> Forall home (dirs c)).
    { intros raw HRaw. unfold config_new.
      assert (J : forall g, g = unwrap_or (raw_general raw) {| g_dirs := None; g_default_syntax := None; g_whitespace := None |} ->
        match g_dirs g with None => [o_join w' (mv r) (lit "templates")] | Some v => map (o_join w' (mv r)) v end = map mv match g_dirs g with None => [o_join w r (lit "templates")] | Some v => map (o_join w r) v end /\
        Forall home match g_dirs g with None => [o_join w r (lit "templates")] | Some v => map (o_join w r) v end).
      { intros g Hg. destruct (g_dirs g) as [v|] eqn:EG.
        - assert (RV : forall x, In x v -> rel x).
          { intros x Hx. destruct HRaw as [->|HRaw]; [subst g; discriminate EG|]. destruct (raw_general raw) as [g0|] eqn:E0; cbn [unwrap_or] in Hg; subst g; [|discriminate EG]. eapply (r_dirs _ _ _ _ _ R); eassumption. }
          split.
          + rewrite map_map. apply map_ext_in. intros x Hx. apply (m_join _ _ _ _ _ _ M); auto.
          + apply Forall_forall. intros y Hy. apply in_map_iff in Hy as (x & <- & Hx). apply (m_join _ _ _ _ _ _ M); auto.
        - destruct (m_join _ _ _ _ _ _ M r _ HR (r_templates _ _ _ _ _ R)) as (J1 & J2 & _). split; [cbn [map]; rewrite J1; reflexivity|constructor; [exact J2|constructor]]. }
      specialize (J _ eq_refl). destruct J as [J1 J2]. cbv zeta.
      set (g := unwrap_or (raw_general raw) _) in *. rewrite J1.
      destruct (match tw with None => Ok (unwrap_or (g_whitespace g) Preserve) | Some x => parse_whitespace x end) as [x|m|]; cbn [rbind rmap]; [|split; [reflexivity|discriminate]..].
      destruct (add_syntaxes _ _) as [y|m|]; cbn [rbind rmap]; [|split; [reflexivity|discriminate]..]. destruct (assoc _ y); [|split; [reflexivity|discriminate]]. split; [reflexivity|]. intros c [= <-]. exact J2. }
    destruct toml as [|c t]; cbn [rbind]; [apply K; left; reflexivity|]. rewrite (m_toml _ _ _ _ _ _ M). destruct (o_toml w (c :: t)) as [raw|] eqn:ET; cbn [rbind]; [|split; [reflexivity|discriminate]]. apply K. right. reflexivity.
  Qed.
  Lemma find_dir_moved n : rel n -> forall ds, Forall home ds -> find_dir (o_join w') (o_exists w') (map mv ds) n = option_map mv (find_dir (o_join w) (o_exists w) ds n) /\
    forall p, find_dir (o_join w) (o_exists w) ds n = Some p -> file p.
  Proof.
    intros HN. induction 1 as [|x ds H _ [I1 I2]]; [split; [reflexivity|discriminate]|]. cbn [map find_dir]. destruct (m_join _ _ _ _ _ _ M x n H HN) as (-> & _ & J). rewrite (m_exists _ _ _ _ _ _ M).
    destruct (o_exists w (o_join w x n)); [split; [reflexivity|intros p [= <-]; exact J]|]. split; assumption.
  Qed.
  Lemma find_moved cfg n from : Forall home (dirs cfg) -> rel n -> file from -> find_from w' (mcfg cfg) n (mv from) = moved_path mv (find_from w cfg n from) /\ forall q, find_from w cfg n from = Ok q -> file q.
  Proof.
    intros H1 H2 H3. unfold find_from, find_template. destruct (m_with _ _ _ _ _ _ M from n H3 H2) as [-> J]. rewrite (m_exists _ _ _ _ _ _ M).
    destruct (o_exists w (o_with_file_name w from n)); [split; [reflexivity|intros q [= <-]; exact J]|]. cbn [mcfg dirs]. destruct (find_dir_moved n H2 _ H1) as [-> K].
    destruct (find_dir (o_join w) (o_exists w) (dirs cfg) n) as [p|]; cbn [option_map moved_path]; [split; [reflexivity|intros q [= <-]; apply K; reflexivity]|split; [reflexivity|discriminate]].
  Qed.
  Definition minp (i : template_input) : template_input :=
    {| i_path := mv (i_path i); i_syntax := i_syntax i; i_escaper := i_escaper i; i_mime_ext := i_mime_ext i; i_block := i_block i; i_source := i_source i |}.
  Lemma input_moved cfg a : Forall home (dirs cfg) -> template_args_new (d_attrs d) = Ok a -> input_of w' d (mcfg cfg) a = rmap minp (input_of w d cfg a) /\
    forall i, input_of w d cfg a = Ok i -> file (i_path i) /\ a_source a = Some (i_source i).
  Proof.
    intros HD EA. unfold input_of, template_input_new. destruct (a_source a) as [src|] eqn:ES; [|split; [reflexivity|discriminate]].
    set (path := match src, a_ext a with SPath p, _ => find_template (o_join w) (o_with_file_name w) (o_exists w) (dirs cfg) p None | SSource _, Some ext => Ok (d_ident d ++ lit "." ++ ext)
                 | SSource _, None => Err (lit "must include 'ext' attribute when using 'source' attribute") end).
    set (path' := match src, a_ext a with SPath p, _ => find_template (o_join w') (o_with_file_name w') (o_exists w') (dirs (mcfg cfg)) p None | SSource _, Some ext => Ok (d_ident d ++ lit "." ++ ext)
                 | SSource _, None => Err (lit "must include 'ext' attribute when using 'source' attribute") end).
    assert (K : path' = moved_path mv path /\ forall p, path = Ok p -> file p).
    { subst path path'. destruct src as [p|s].
      - pose proof (r_path _ _ _ _ _ R _ _ EA ES) as HR. unfold find_template. cbn [mcfg dirs]. destruct (find_dir_moved p HR _ HD) as [-> K].
        destruct (find_dir (o_join w) (o_exists w) (dirs cfg) p) as [q|]; cbn [option_map moved_path]; [split; [reflexivity|intros ? [= <-]; apply K; reflexivity]|split; [reflexivity|discriminate]].
      - destruct (a_ext a) as [ext|] eqn:EX; [|split; [reflexivity|discriminate]]. destruct (r_inline _ _ _ _ _ R _ _ _ EA ES EX) as [K1 K2]. cbn [moved_path]. rewrite K2. split; [reflexivity|]. intros ? [= <-]. exact K1. }
    destruct K as [-> K]. destruct path as [p|m|]; cbn [moved_path rbind rmap]; [|split; [reflexivity|discriminate]..]. specialize (K p eq_refl). rewrite (m_name _ _ _ _ _ _ M p K).
    change (syntaxes (mcfg cfg)) with (syntaxes cfg). change (default_syntax_name (mcfg cfg)) with (default_syntax_name cfg). change (escapers (mcfg cfg)) with (escapers cfg).
    destruct (match a_syntax a with None => _ | Some n => _ end) as [sy|m|]; cbn [rbind rmap]; [|split; [reflexivity|discriminate]..].
    destruct (find_escaper _ (escapers cfg)) as [e|]; [|split; [reflexivity|discriminate]]. split; [reflexivity|]. intros i [= <-]. cbn [i_path i_source]. auto.
  Qed.
  Lemma load_moved p : load w' (mv p) = load w p.
  Proof. unfold load. rewrite (m_read _ _ _ _ _ _ M). reflexivity. Qed.
  Lemma canonical_moved inline own : forall ps, canonical_paths w' inline (mv own) (map mv ps) = rmap (map mv) (canonical_paths w inline own ps).
  Proof.
    induction ps as [|p ps IH]; [reflexivity|]. cbn [map canonical_paths]. rewrite (mv_eqb mv inj), IH, (m_canonical _ _ _ _ _ _ M). destruct (inline && str_eqb p own); [reflexivity|].
    destruct (o_canonical w p); cbn [option_map]; [|reflexivity]. destruct (canonical_paths w inline own ps); reflexivity.
  Qed.
  (** C69.  The whole macro, with everything in the file system moved: the same text but for the paths of the files it names, or the same
      error. *)
  Theorem C69_project files depth :
    match build_source w files depth d with
    | GOk s => exists fr code size, s = source_text (o_plain w) fr code size /\ build_source w' files depth d = GOk (source_text (o_plain w) (moved_frame mv fr) (moved_code mv code) size)
    | GErr m => build_source w' files depth d = GErr m
    | GPanic => build_source w' files depth d = GPanic
    | GFuel => build_source w' files depth d = GFuel
    end.
  Proof.
    unfold build_source. destruct (template_args_new (d_attrs d)) as [a|m|] eqn:EA; cbn [of_res gbind]; [|reflexivity..]. rewrite (read_config_moved a EA).
    destruct (read_config_file w (a_config a)) as [toml|m|]; cbn [of_res gbind]; [|reflexivity..]. destruct (config_moved toml (a_whitespace a)) as [-> HC].
    destruct (config_of w toml (a_whitespace a)) as [cfg|m|] eqn:EC; cbn [rmap of_res gbind]; [|reflexivity..]. specialize (HC cfg eq_refl). destruct (input_moved cfg a HC EA) as [-> HI].
    destruct (input_of w d cfg a) as [i|m|] eqn:EN; cbn [rmap of_res gbind]; [|reflexivity..]. destruct (HI i eq_refl) as [HF HS]. change (i_source (minp i)) with (i_source i). change (i_path (minp i)) with (mv (i_path i)).
    change (i_syntax (minp i)) with (i_syntax i). rewrite load_moved. set (src := match i_source i with SSource s => Ok s | SPath _ => load w (i_path i) end).
    set (S := fun s => a_source a = Some (SSource s) \/ exists f t, o_read w f = Some t /\ s = get_template_source t).
    assert (HL : forall p s, load w p = Ok s -> S s). { unfold load. intros p s E. destruct (o_read w p) as [t|] eqn:ER; [|discriminate E]. injection E as <-. right. eauto. }
    assert (HSrc : forall s, src = Ok s -> S s). { subst src. intros s E. destruct (i_source i) as [p|t] eqn:EI; [eapply HL, E|]. injection E as <-. left. exact HS. }
    destruct src as [s|m|]; cbn [of_res gbind]; [|reflexivity..]. specialize (HSrc s eq_refl).
    assert (EP : parse_text w' (i_syntax i) = parse_text w (i_syntax i)) by (unfold parse_text; rewrite (m_lowercase _ _ _ _ _ _ M), (m_debug _ _ _ _ _ _ M); reflexivity). rewrite EP.
    assert (HF2 : forall p from, rel p -> file from -> find_from w' (mcfg cfg) p (mv from) = moved_path mv (find_from w cfg p from)) by (intros; apply find_moved; assumption).
    destruct (find_used_mv mv inj rel file S (find_from w cfg) (find_from w' (mcfg cfg)) (load w) (load w') (parse_text w (i_syntax i))) with (fuel := files) (path := i_path i) (src := s) as [U1 U2].
    { exact HF2. } { intros p from q H1 H2. apply find_moved; assumption. } { apply load_moved. } { exact HL. }
    { intros t ns H1 H2. apply mentions_good. intros p K. eapply (r_names _ _ _ _ _ R); [exact EA|exact EC|exact EN|exact H1|exact H2|exact K]. } { exact HF. } { exact HSrc. }
    rewrite U1. destruct (find_used_templates _ _ _ files (i_path i) s) as [ts|m| |]; cbn [gmap gbind]; [|reflexivity..]. specialize (U2 ts eq_refl).
    assert (EK : map fst (moved_templates mv ts) = map mv (map fst ts)) by (unfold moved_templates; rewrite !map_map; reflexivity). rewrite EK, canonical_moved.
    destruct (canonical_paths w _ _ _) as [ps|m|]; cbn [rmap of_res gbind]; [|reflexivity..].
    assert (EI : ginput_of w' (mcfg cfg) (minp i) = moved_input mv (ginput_of w cfg i)) by (unfold ginput_of, moved_input; rewrite (m_json _ _ _ _ _ _ M); reflexivity). rewrite EI.
    rewrite (build_mv mv inj rel file (find_from w cfg) (find_from w' (mcfg cfg)) (ginput_of w cfg i) depth ts HF HF2 U2).
    destruct (build_template _ _ depth ts) as [[code size]|m| |]; cbn [gmap gbind rt fst snd]; [|reflexivity..].
    exists (frame_of w d a i ps), code, size. split; [reflexivity|]. rewrite (m_plain _ _ _ _ _ _ M). do 2 f_equal.
    unfold frame_of, moved_frame, extension_to_mime_type. cbn [fr_impl fr_impl_rocket fr_name fr_where fr_files fr_extension fr_mime fr_actix fr_axum fr_rocket fr_warp minp i_path i_mime_ext].
    rewrite (m_name _ _ _ _ _ _ M _ HF), (m_mime _ _ _ _ _ _ M). pose proof (m_flags _ _ _ _ _ _ M) as F. injection F as -> -> -> ->. reflexivity.
  Qed.
End Project.
Print Assumptions C69_project.

(** ** Examples *)
Fixpoint after_slash (s acc : str) : str := match s with [] => rev acc | c :: t => if c =? 47 then after_slash t [] else after_slash t (c :: acc) end.
Fixpoint up_to_slash (s acc sure : str) : str := match s with [] => sure | c :: t => if c =? 47 then up_to_slash t (acc ++ [c]) (acc ++ [c]) else up_to_slash t (acc ++ [c]) sure end.
Definition join_text (a b : str) : str := if starts_with (lit "/") b then b else a ++ lit "/" ++ b.
Definition two_dirs : raw_config := {| raw_general := Some {| g_dirs := Some [lit "pages"; lit "parts"]; g_default_syntax := None; g_whitespace := None |}; raw_syntaxes := None; raw_escapers := None |}.
(** A world with the path functions of std, written down on text: a name beginning with a slash replaces the path before it. *)
Definition placed (root : str) (fs : list (str * str)) : outside :=
  {| o_root := Some root; o_join := join_text; o_with_file_name := fun r n => if starts_with (lit "/") n then n else up_to_slash r [] [] ++ n;
     o_name_of := fun p => match after_slash p [] with [] => None | n => Some n end;
     o_exists := fun p => match get p fs with Some _ => true | None => false end; o_read := fun p => get p fs;
     o_canonical := fun p => match get p fs with Some _ => Some p | None => None end;
     o_toml := fun _ => Some two_dirs; o_mime := fun x => if str_eqb x (lit "html") then lit "text/html" else lit "text/plain";
     o_lowercase := fun _ => false; o_debug := fun s => s; o_plain := fun c => c <? 128; o_xid_start := fun _ => false; o_xid_continue := fun _ => false;
     o_json := false; o_actix := true; o_axum := false; o_rocket := true; o_warp := false |}.
(** Moving what is below /a to /b and the reverse *)
Definition A : str := lit "/a/".
Definition B : str := lit "/b/".
Definition swap (s : str) : str := if starts_with A s then B ++ skipn 3 s else if starts_with B s then A ++ skipn 3 s else s.
Definition below (s : str) : Prop := exists t, s = A ++ t.
Definition relative (s : str) : Prop := starts_with (lit "/") s = false.
Lemma swap_A t : swap (A ++ t) = B ++ t. Proof. reflexivity. Qed.
Lemma swap_B t : swap (B ++ t) = A ++ t. Proof. reflexivity. Qed.
Lemma swap_twice s : swap (swap s) = s.
Proof.
  destruct (starts_with A s) eqn:E1; [apply starts_with_iff in E1 as [t ->]; rewrite swap_A; apply swap_B|]. destruct (starts_with B s) eqn:E2; [apply starts_with_iff in E2 as [t ->]; rewrite swap_B; apply swap_A|].
  assert (E : swap s = s) by (unfold swap; rewrite E1, E2; reflexivity). rewrite E. exact E.
Qed.
Lemma swap_inj p q : swap p = swap q -> p = q.
Proof. intros E. rewrite <- (swap_twice p), <- (swap_twice q), E. reflexivity. Qed.
(** What follows the slashes of a file below /a does not depend on the name before *)
Lemma up_shift t : forall x y z, up_to_slash t (z ++ x) (z ++ y) = z ++ up_to_slash t x y.
Proof.
  induction t as [|c t IH]; intros x y z; [reflexivity|]. cbn [up_to_slash]. rewrite <- app_assoc. destruct (c =? 47).
  - apply (IH (x ++ [c]) (x ++ [c]) z).
  - apply (IH (x ++ [c]) y z).
Qed.
Lemma up_below z t : z = A \/ z = B -> up_to_slash (z ++ t) [] [] = z ++ up_to_slash t [] [].
Proof.
  intros H. rewrite <- (up_shift t [] [] z). rewrite app_nil_r. destruct H as [-> | ->]; reflexivity.
Qed.
Lemma after_below z t : z = A \/ z = B -> after_slash (z ++ t) [] = after_slash t [].
Proof. intros [-> | ->]; reflexivity. Qed.
Definition moved_files (fs : list (str * str)) : list (str * str) := map (fun x => (swap (fst x), snd x)) fs.
Lemma get_moved p fs : get (swap p) (moved_files fs) = get p fs.
Proof. unfold moved_files. rewrite (get_keys swap swap_inj (fun x => x)). destruct (get p fs); reflexivity. Qed.
Lemma placed_moved fs : moved_world swap relative below below (placed (lit "/a/p") fs) (placed (lit "/b/p") (moved_files fs)).
Proof.
  constructor; cbn [placed o_root o_join o_with_file_name o_name_of o_exists o_read o_canonical o_toml o_mime o_lowercase o_debug o_plain o_json o_actix o_axum o_rocket o_warp]; try reflexivity.
  - intros r [= <-]. exists (lit "p"). reflexivity.
  - intros d n [t ->] HN. unfold join_text. unfold relative in HN. rewrite HN, swap_A, <- !app_assoc, swap_A. split; [reflexivity|]. split; eexists; reflexivity.
  - intros f n [t ->] HN. unfold relative in HN. rewrite HN, swap_A, !up_below by auto. rewrite <- !app_assoc, swap_A. split; [reflexivity|]. eexists; reflexivity.
  - intros f [t ->]. rewrite swap_A, !after_below by auto. reflexivity.
  - intros p. rewrite get_moved. reflexivity.
  - intros p. apply get_moved.
  - intros p. rewrite get_moved. destruct (get p fs); reflexivity.
Qed.
Definition site : list (str * str) :=
  [(lit "/a/p/askama.toml", lit "x"); (lit "/a/p/pages/main.html", lit "{% extends ""base.html"" %}{% block b %}{{ x }} {% include ""sub/inc.html"" %}{% endblock %}
"); (lit "/a/p/parts/base.html", lit "<{% block b %}{% endblock %}> {{ y }}"); (lit "/a/p/parts/sub/inc.html", lit "!{{ z|upper }}")].
Definition page : item :=
  {| d_ident := lit "Page"; d_attrs := [Some [MNameValue (Some (lit "path")) (VStr (lit "main.html"))]]; d_impl := lit "impl"; d_impl_rocket := lit "impl < 'askama1 >"; d_where := [] |}.
(** All names in a template are as [q] says *)
Fixpoint tame (q : str -> bool) (fuel : nat) (n : node) : bool :=
  match fuel with
  | O => false
  | Datatypes.S k => match refers_to n with Some p => q p | None => true end && match n with
      | NIf _ cs => forallb (fun c => match c with Cond _ _ b => forallb (tame q k) b end) cs
      | NMatch _ _ arms _ => forallb (fun c => match c with When _ _ b => forallb (tame q k) b end) arms
      | NLoop _ _ _ _ b _ e _ => forallb (tame q k) b && forallb (tame q k) e
      | NBlockDef _ _ b _ | NMacro _ _ _ b _ | NFilterBlock _ _ _ b _ => forallb (tame q k) b
      | _ => true
      end
  end.
Lemma tame_child q b n b' m k : child b n b' m -> tame q k n = true -> exists k', tame q k' m = true.
Proof.
  intros H E. destruct k as [|k]; [discriminate E|]. exists k. cbn [tame] in E. apply andb_true_iff in E as [_ E].
  destruct H as [b w cs w' t ns m H1 H2|b w1 e arms w2 w' t ns m H1 H2|b w1 v it c body w2 els w3 m H|b w1 v it c body w2 els w3 m H|b w1 x ns w2 m H|b w1 x args ns w2 m H|b w1 x args ns w2 m H];
    try (apply andb_true_iff in E as [E E']); rewrite forallb_forall in E; try (apply E; exact H).
  - specialize (E _ H1). cbn in E. rewrite forallb_forall in E. auto.
  - specialize (E _ H1). cbn in E. rewrite forallb_forall in E. auto.
  - rewrite forallb_forall in E'. auto.
Qed.
Lemma tame_ok q k ns p : forallb (tame q k) ns = true -> mentions ns p -> q p = true.
Proof.
  intros E (b & m & (n & Hn & K) & R). rewrite forallb_forall in E. specialize (E _ Hn). clear Hn ns. revert k E. induction K as [b n|b n b1 m b2 j C K IH]; intros k E.
  - destruct k as [|k]; [discriminate E|]. cbn [tame] in E. rewrite R in E. apply andb_true_iff in E as [E _]. exact E.
  - destruct (tame_child _ _ _ _ _ _ C E) as [k' E']. exact (IH R k' E').
Qed.
Lemma site_relative : all_relative swap relative below (placed (lit "/a/p") site) page.
Proof.
  assert (EA : exists a, template_args_new (d_attrs page) = Ok a /\ a_config a = None /\ a_source a = Some (SPath (lit "main.html")) /\ a_whitespace a = None /\ a_syntax a = None)
    by (eexists; split; [vm_compute; reflexivity|repeat split; vm_compute; reflexivity]).
  destruct EA as (a0 & EA & E1 & E2 & E3 & E4).
  constructor; try reflexivity.
  - intros a c H. rewrite EA in H. injection H as <-. rewrite E1. discriminate.
  - intros a p H. rewrite EA in H. injection H as <-. rewrite E2. intros [= <-]. reflexivity.
  - intros a s ext H. rewrite EA in H. injection H as <-. rewrite E2. discriminate.
  - intros t raw g ds x [= <-] [= <-] [= <-] [<-|[<-|[]]]; reflexivity.
  - intros a toml cfg i src ns p H. rewrite EA in H. injection H as <-. rewrite E2, E3. intros HC HI [K|(f & s & K & ->)]; [discriminate K|].
    assert (HS : i_syntax i = default_syntax).
    { assert (D : assoc (default_syntax_name cfg) (syntaxes cfg) = Some default_syntax).
      { destruct toml as [|c toml]; vm_compute in HC; injection HC as <-; vm_compute; reflexivity. }
      unfold input_of, template_input_new in HI. rewrite E2, E4, D in HI. destruct (find_template _ _ _ _ _ _) as [q|m|]; cbn [rbind] in HI; try discriminate HI.
      destruct (find_escaper _ _); [|discriminate HI]. injection HI as <-. reflexivity. }
    rewrite HS. intros HP HM. apply negb_true_iff. revert HM. apply (tame_ok (fun p => negb (starts_with (lit "/") p)) 9 ns). cbn [placed o_read] in K.
    assert (T : forallb (fun x => match parse_text (placed (lit "/a/p") site) default_syntax (get_template_source (snd x)) with Ok ns => forallb (tame (fun p => negb (starts_with (lit "/") p)) 9) ns | _ => true end) site = true) by (vm_compute; reflexivity).
    rewrite forallb_forall in T. apply get_in in K. specialize (T _ K). cbn [snd] in T. rewrite HP in T. exact T.
Qed.
(** A page in three files and two directories, moved from /a/p to /b/p: the theorem applies, there is code, and it names the files. *)
Fixpoint contains (x s : str) : bool := starts_with x s || match s with [] => false | _ :: t => contains x t end.
Definition names_files (r : gres str) (fs : list str) : bool := match r with GOk s => forallb (fun f => contains (lit "include_bytes ! (""" ++ f ++ lit """)") s) fs | _ => false end.
Example C69_project_example :
  moved_world swap relative below below (placed (lit "/a/p") site) (placed (lit "/b/p") (moved_files site)) /\ all_relative swap relative below (placed (lit "/a/p") site) page /\
  names_files (build_source (placed (lit "/a/p") site) 9 9 page) [lit "/a/p/pages/main.html"; lit "/a/p/parts/base.html"; lit "/a/p/parts/sub/inc.html"] = true /\
  names_files (build_source (placed (lit "/b/p") (moved_files site)) 9 9 page) [lit "/b/p/pages/main.html"; lit "/b/p/parts/base.html"; lit "/b/p/parts/sub/inc.html"] = true.
Proof. split; [apply placed_moved|]. split; [apply site_relative|]. split; vm_compute; reflexivity. Qed.
(** A name beginning with a slash does not move with the project: here the template is no longer found. *)
Definition fixed_site : list (str * str) := [(lit "/a/p/pages/main.html", lit "{% include ""/a/p/parts/inc.html"" %}"); (lit "/a/p/parts/inc.html", lit "!"); (lit "/a/p/askama.toml", lit "x")].
Example C69_absolute_example : match build_source (placed (lit "/a/p") fixed_site) 9 9 page with GOk _ => true | _ => false end = true /\
  build_source (placed (lit "/b/p") (moved_files fixed_site)) 9 9 page = GErr (lit "template not found").
Proof. split; vm_compute; reflexivity. Qed.
(** Code that names a file, and the same code with the file moved *)
Example C69_code_example : let inp := {| f_escaper := lit "::askama::Html"; f_escapers := []; f_json := false; f_ws := Preserve; f_block := None; f_path := lit "/a/m" |} in
  let ts := [(lit "/a/m", [NLit {| lws := []; lval := lit "x"; rws := [] |}; NInclude no_ws (lit "i")]); (lit "/a/i", [NExpr no_ws (Var (lit "v"))])] in
  let find := fun name from => Ok (up_to_slash from [] [] ++ name) in
  match build_template inp find 9 ts with GOk (c, _) => existsb (fun s => match s with SIncludeBytes p => str_eqb p (lit "/a/i") | SBlock b => existsb (fun s => match s with SIncludeBytes p => str_eqb p (lit "/a/i") | _ => false end) b | _ => false end) c | _ => false end = true /\
  forall name from, In from (map fst ts) -> find name (swap from) = moved_path swap (find name from).
Proof. cbv zeta. split; [vm_compute; reflexivity|]. intros name from [<-|[<-|[]]]; reflexivity. Qed.
(** A template by itself: a condition in a loop *)
Example C69_alone_example :
  match parse_text (placed [] []) default_syntax (lit "{% for x in xs %}{% if x %}{{ x }}{% endif %}{% endfor %}") with Ok ns => forallb (tame (fun _ => false) 9) ns | _ => false end = true /\
  forall ns, forallb (tame (fun _ => false) 9) ns = true -> forall n, ~ mentions ns n.
Proof. split; [vm_compute; reflexivity|]. intros ns E n K. discriminate (tame_ok _ _ _ _ E K). Qed.
