(** * Facts about expression trees: induction, equality, names of arguments. *)
From Coq Require Import DecimalNat ZArith ZifyBool ZifyNat ZifyN.
From Verif Require Import Base Ws Ast Ident GenExpr.
Local Open Scope N_scope.

(** ** Induction *)
Section RexprInd.
  Variable P : rexpr -> Prop.
  Definition PArgs (l : list (bool * bool * rexpr)) := Forall (fun a => P (snd a)) l.
  Definition POpt (o : option rexpr) := match o with Some e => P e | None => True end.
  Hypothesis HTok : forall s, P (RTok s).
  Hypothesis HStr : forall s, P (RStr s).
  Hypothesis HChar : forall s, P (RChar s).
  Hypothesis HName : forall s, P (RName s).
  Hypothesis HPath : forall l, P (RPath l).
  Hypothesis HArr : forall l, Forall P l -> P (RArr l).
  Hypothesis HTup : forall l, Forall P l -> P (RTup l).
  Hypothesis HField : forall e x, P e -> P (RField e x).
  Hypothesis HIndex : forall e i, P e -> P i -> P (RIndex e i).
  Hypothesis HRef : forall e, P e -> P (RRef e).
  Hypothesis HDeref : forall e, P e -> P (RDeref e).
  Hypothesis HUn : forall o e, P e -> P (RUn o e).
  Hypothesis HBin : forall o l r, P l -> P r -> P (RBin o l r).
  Hypothesis HRange : forall o l r, POpt l -> POpt r -> P (RRange o l r).
  Hypothesis HGrp : forall e, P e -> P (RGrp e).
  Hypothesis HCycle : forall e, P e -> P (RCycle e).
  Hypothesis HCall : forall f l, P f -> PArgs l -> P (RCall f l).
  Hypothesis HMacro : forall p a, P (RMacro p a).
  Hypothesis HTry : forall e, P e -> P (RTry e).
  Hypothesis HFilter : forall b x l, PArgs l -> P (RFilter b x l).
  Hypothesis HSafe : forall x a, P (snd a) -> P (RSafe x a).
  Hypothesis HEscape : forall x a, P (snd a) -> P (REscape x a).
  Hypothesis HFormat : forall x l, PArgs l -> P (RFormat x l).
  Hypothesis HJoin : forall l, Forall P l -> P (RJoin l).
  Hypothesis HMarkup : forall x e, P e -> P (RMarkup x e).
  Fixpoint rexpr_ind' (e : rexpr) : P e :=
    let lst := fix lst (l : list rexpr) : Forall P l :=
      match l with [] => Forall_nil _ | e :: l' => Forall_cons _ (rexpr_ind' e) (lst l') end in
    let args := fix args (l : list (bool * bool * rexpr)) : PArgs l :=
      match l with
      | [] => Forall_nil _
      | a :: l' => Forall_cons a (match a as a return P (snd a) with (_, e) => rexpr_ind' e end) (args l')
      end in
    let opt o : POpt o := match o with Some e => rexpr_ind' e | None => I end in
    match e with
    | RTok s => HTok s | RStr s => HStr s | RChar s => HChar s | RName s => HName s | RPath l => HPath l
    | RArr l => HArr l (lst l) | RTup l => HTup l (lst l)
    | RField e x => HField e x (rexpr_ind' e)
    | RIndex e i => HIndex e i (rexpr_ind' e) (rexpr_ind' i)
    | RRef e => HRef e (rexpr_ind' e) | RDeref e => HDeref e (rexpr_ind' e)
    | RUn o e => HUn o e (rexpr_ind' e)
    | RBin o l r => HBin o l r (rexpr_ind' l) (rexpr_ind' r)
    | RRange o l r => HRange o l r (opt l) (opt r)
    | RGrp e => HGrp e (rexpr_ind' e) | RCycle e => HCycle e (rexpr_ind' e)
    | RCall f l => HCall f l (rexpr_ind' f) (args l)
    | RMacro p a => HMacro p a
    | RTry e => HTry e (rexpr_ind' e)
    | RFilter b x l => HFilter b x l (args l)
    | RSafe x a => HSafe x a (match a as a return P (snd a) with (_, e) => rexpr_ind' e end)
    | REscape x a => HEscape x a (match a as a return P (snd a) with (_, e) => rexpr_ind' e end)
    | RFormat x l => HFormat x l (args l)
    | RJoin l => HJoin l (lst l)
    | RMarkup x e => HMarkup x e (rexpr_ind' e)
    end.
End RexprInd.

(** ** Equality *)
Lemma list_eqb_eq {A} (f : A -> A -> bool) l : Forall (fun a => forall b, f a b = true -> a = b) l ->
  forall l', list_eqb f l l' = true -> l = l'.
Proof.
  induction 1 as [|a l Ha Hl IH]; intros [|b l'] H; cbn in H; try discriminate; [reflexivity|].
  apply andb_prop in H as [H1 H2]. f_equal; [apply Ha; exact H1|apply IH; exact H2].
Qed.
Lemma strs_eqb_eq l : forall l', list_eqb str_eqb l l' = true -> l = l'.
Proof. apply list_eqb_eq. apply Forall_forall. intros a _ b H. apply str_eqb_eq. exact H. Qed.
Lemma arg_eqb_eq a : (forall b, rexpr_eqb (snd a) b = true -> snd a = b) -> forall b, arg_eqb rexpr_eqb a b = true -> a = b.
Proof.
  destruct a as [[p q] e]. cbn. intros IH [[p' q'] e'] H. cbn in H.
  apply andb_prop in H as [H H3]. apply andb_prop in H as [H1 H2].
  apply Bool.eqb_prop in H1, H2. apply IH in H3. subst. reflexivity.
Qed.
Lemma args_eqb_eq l : Forall (fun a : bool * bool * rexpr => forall b, rexpr_eqb (snd a) b = true -> snd a = b) l ->
  forall l', list_eqb (arg_eqb rexpr_eqb) l l' = true -> l = l'.
Proof.
  intros H. apply list_eqb_eq. eapply Forall_impl; [|exact H]. intros a Ha. apply arg_eqb_eq. exact Ha.
Qed.
Lemma opt_eqb_eq (o o' : option rexpr) : POpt (fun a => forall b, rexpr_eqb a b = true -> a = b) o ->
  match o, o' with None, None => true | Some x, Some y => rexpr_eqb x y | _, _ => false end = true -> o = o'.
Proof. destruct o, o'; cbn; intros H E; try discriminate; [f_equal; auto|reflexivity]. Qed.
Lemma rexpr_eqb_eq a : forall b, rexpr_eqb a b = true -> a = b.
Proof.
  induction a using rexpr_ind'; intros b0 E; destruct b0; cbn [rexpr_eqb] in E; try discriminate E;
    repeat match goal with H : _ && _ = true |- _ => apply andb_prop in H as [H ?] end;
    repeat match goal with
           | H : str_eqb _ _ = true |- _ => apply str_eqb_eq in H; subst
           | H : Bool.eqb _ _ = true |- _ => apply Bool.eqb_prop in H; subst
           | H : list_eqb str_eqb _ _ = true |- _ => apply strs_eqb_eq in H; subst
           | H : list_eqb rexpr_eqb _ _ = true |- _ => apply list_eqb_eq in H; [subst|assumption]
           | H : list_eqb (arg_eqb rexpr_eqb) _ _ = true |- _ => apply args_eqb_eq in H; [subst|assumption]
           | H : arg_eqb rexpr_eqb _ _ = true |- _ => apply arg_eqb_eq in H; [subst|assumption]
           | H : match _ with Some _ => _ | None => _ end = true |- _ => apply opt_eqb_eq in H; [subst|assumption]
           | IH : forall b, rexpr_eqb ?a b = true -> ?a = b, H : rexpr_eqb ?a _ = true |- _ => apply IH in H; subst
           end; try reflexivity.
Qed.

(** ** Names of arguments *)
Lemma uint_str_inj u : forall v, uint_str u = uint_str v -> u = v.
Proof. induction u; intros [] H; cbn in H; try discriminate H; try reflexivity; injection H as H; f_equal; auto. Qed.
Lemma nat_str_inj n m : nat_str n = nat_str m -> n = m.
Proof. intros H. apply Unsigned.to_uint_inj. apply uint_str_inj. exact H. Qed.
Lemma arg_name_inj n m : arg_name n = arg_name m -> n = m.
Proof. unfold arg_name. intros H. apply app_inv_head in H. apply nat_str_inj. exact H. Qed.
Lemma uint_str_digits u : Forall (fun c => 48 <= c <= 57) (uint_str u).
Proof. induction u; cbn; constructor; auto; lia. Qed.
Lemma nat_str_digits n : Forall (fun c => 48 <= c <= 57) (nat_str n).
Proof. apply uint_str_digits. Qed.
