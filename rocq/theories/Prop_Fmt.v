(** * C66: the format strings of the generated code fit their arguments.  Specification in FmtSpec.v. *)
From Verif Require Import Base Ws Config Nom Ast Ident GenExpr Heritage Gen FmtSpec TestWorld.
From Verif Require FmtGen.
From Coq Require Import Lia.
Local Open Scope N_scope.

(** C66.  For all templates, parsed or not, and every input: each string given to [write!] or [format!] in the generated code is a
    well-formed format string; its holes name arguments of the same call only, so that nothing is taken from the scope around; each
    argument is used in it; and no two arguments have the same name. *)
Theorem C66_formats_fit inp find fuel templates code z :
  build_template inp find fuel templates = GOk (code, z) -> formats_fit code.
Proof.
  intros E f args H. pose proof (FmtGen.build_any FmtGen.fit inp find fuel templates code z (FmtGen.prepare_fit inp) E) as K.
  rewrite Forall_forall in K. exact (K _ H).
Qed.
Print Assumptions C66_formats_fit.

(** ** The grammar *)
Lemma letter_plain c : letter c \/ digit c -> c <> 123 /\ c <> 125.
Proof. unfold letter, digit. lia. Qed.
Lemma identifier_plain x : identifier x -> exists c r, x = c :: r /\ c <> 123 /\ c <> 125 /\ Forall (fun c => c <> 125) r.
Proof.
  intros (c & r & -> & H1 & H2). exists c, r. split; [reflexivity|]. destruct (letter_plain c (or_introl H1)) as [K1 K2]. split; [exact K1|]. split; [exact K2|].
  eapply Forall_impl; [|exact H2]. intros d Hd. apply letter_plain, Hd.
Qed.
Lemma cut x : Forall (fun c : N => c <> 125) x -> forall y f g, Forall (fun c => c <> 125) y -> x ++ 125 :: f = y ++ 125 :: g -> x = y /\ f = g.
Proof.
  induction 1 as [|c x Hc H IH]; intros y f g Hy E; destruct Hy as [|d y Hd Hy]; cbn [app] in E.
  - injection E as E. auto.
  - injection E as E _. congruence.
  - injection E as E _. congruence.
  - injection E as E1 E2. destruct (IH y f g Hy E2) as [-> ->]. subst d. auto.
Qed.
(** A string has one reading: the names in its holes are determined. *)
Theorem C66_one_reading f l : Format f l -> forall l', Format f l' -> l = l'.
Proof.
  induction 1 as [|f l H IH|f l H IH|c f l H1 H2 H IH|x f l HI H IH]; intros l' Q; inversion Q as [|f' k Q1 E|f' k Q1 E|c' f' k K1 K2 Q1 E|x' f' k HI' Q1 E]; subst; try congruence; auto.
  - destruct (identifier_plain _ HI') as (c & r & -> & K & _). cbn [app] in E. injection E as E _. congruence.
  - destruct (identifier_plain _ HI) as (c & r & E' & K & _). subst x. cbn [app] in *. congruence.
  - destruct (identifier_plain _ HI) as (c & r & E1 & K1 & K2 & K3). destruct (identifier_plain _ HI') as (c' & r' & E1' & K1' & K2' & K3').
    destruct (cut x ltac:(subst x; constructor; assumption) x' f f' ltac:(subst x'; constructor; assumption)) as [-> ->]; [congruence|]. f_equal. apply IH, Q1.
Qed.
Print Assumptions C66_one_reading.

(** What does not fit: a hole with no argument, an argument with no hole, two arguments of one name, a brace on its own. *)
Example C66_unfit : ~ fits (lit "{expr0}") [] /\ ~ fits (lit "a") [lit "expr0"] /\ ~ fits (lit "{expr0}{expr0}") [lit "expr0"; lit "expr0"] /\ ~ fits (lit "}") [].
Proof.
  assert (ID : identifier (lit "expr0")).
  { exists 101, (lit "xpr0"). split; [reflexivity|]. split; [left; lia|]. change (lit "xpr0") with [120; 112; 114; 48]. do 3 (constructor; [left; left; lia|]). constructor; [right; unfold digit; lia|constructor]. }
  split; [|split; [|split]].
  - intros (hs & H & _ & E). pose proof (C66_one_reading _ _ H [lit "expr0"] (F_hole (lit "expr0") [] [] ID F_end)). subst hs. apply (E (lit "expr0")). left. reflexivity.
  - intros (hs & H & _ & E). assert (hs = []) by (apply (C66_one_reading _ _ H); apply F_char; [discriminate|discriminate|constructor]). subst hs. apply (E (lit "expr0")). left. reflexivity.
  - intros (hs & _ & H & _). inversion H as [|? ? H1 _]. apply H1. left. reflexivity.
  - intros (hs & H & _). inversion H as [| | |c f l H1 H2 H3 E|]. exact (H2 eq_refl).
Qed.

(** C66, an example: braces in the text, a field written three times (one argument), a call written twice (two arguments), a filter
    block, an included file, a macro and a block; the number of format strings and of arguments. *)
Definition ex_dir : dir :=
  [(main, lit "{% extends ""base"" %}{% macro m(v) %}{ {{ v }} }{% endmacro %}{% block b %}{[{{ x }}{{ x }}}{{ x }}{{ f(1) }}{{ f(1) }}{% call m(x) %}{% filter lower %}{{ y }}{expr0}{{ z }}{% endfilter %}{% endblock %}");
   (lit "base", lit "{% for i in l %}<{{ i }}>{% endfor %}{% block b %}{% endblock %}{% include ""inc"" %}");
   (lit "inc", lit "}{{ q }}{")].
Definition shown_formats (block : option str) (d : dir) : option (list (str * nat)) :=
  match t_code d block main with GOk (code, _) => Some (map (fun x => (fst x, length (snd x))) (all_formats code)) | _ => None end.
Example C66_example : shown_formats None ex_dir =
  Some [(lit "<{expr0}>", 1%nat); (lit "{{[{expr0}{expr0}}}{expr0}{expr1}{expr2}", 3%nat); (lit "{{ {expr3} }}", 1%nat); (lit "{expr4}{{expr0}}{expr5}", 2%nat);
        (lit "{expr6}", 1%nat); (lit "}}{expr0}{{", 1%nat)].
Proof. vm_compute. reflexivity. Qed.
