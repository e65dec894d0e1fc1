(** * A concrete world and a driver, to run templates from source text: for tests and for the examples beside theorems. *)
From Coq Require Import ZArith.
From Verif Require Import Base Ws Config Nom Ast Lex ParseExpr ParseNode ParseTests Escape Ident GenExpr Heritage Gen Sem RefSem.
Local Open Scope N_scope.

Inductive cv :=
| CS (s : str) | CN (z : Z) | CB (b : bool)
| CL (l : list cv) | CT (l : list cv)
| CV (name : str) (l : list (str * cv))          (* a struct or enum value; tuple fields are 0, 1, ... *)
| CM (esc : option str) (v : cv)                 (* MarkupDisplay *)
| CF (name : str).                               (* a function *)

Definition c_html (s : str) : str := match html_write_escaped s with Some l => concat l | None => [] end.
Definition c_escape (esc s : str) : str := if str_eqb esc (lit "::askama::Html") then c_html s else s.
Definition z_str (z : Z) : str := match z with Z0 => lit "0" | Zpos p => nat_str (Pos.to_nat p) | Zneg p => lit "-" ++ nat_str (Pos.to_nat p) end.
Fixpoint c_display (v : cv) : option str :=
  match v with
  | CS s => Some s
  | CN z => Some (z_str z)
  | CB b => Some (if b then lit "true" else lit "false")
  | CM None v => c_display v
  | CM (Some esc) v => option_map (c_escape esc) (c_display v)
  | _ => None
  end.
Fixpoint c_eqb (a b : cv) {struct a} : bool :=
  match a, b with
  | CS s, CS t => str_eqb s t
  | CN x, CN y => Z.eqb x y
  | CB x, CB y => Bool.eqb x y
  | CL l, CL m | CT l, CT m => list_eqb c_eqb l m
  | CV x _, CV y _ => str_eqb x y
  | _, _ => false
  end.
Definition digit_val (acc : Z) (c : N) : Z := (acc * 10 + Z.of_N (c - 48))%Z.
Definition c_tok (s : str) : cv :=
  if str_eqb s (lit "true") then CB true else if str_eqb s (lit "false") then CB false
  else CN (fold_left digit_val (List.filter (fun c => (48 <=? c) && (c <=? 57)) s) 0%Z).
Fixpoint c_unescape (s : str) : str :=
  match s with
  | 92 :: 110 :: s' => 10 :: c_unescape s'
  | 92 :: c :: s' => c :: c_unescape s'
  | c :: s' => c :: c_unescape s'
  | [] => []
  end.
Definition up (c : N) : N := if (97 <=? c) && (c <=? 122) then c - 32 else c.
Definition down (c : N) : N := if (65 <=? c) && (c <=? 90) then c + 32 else c.
Definition blank (c : N) : bool := mem_chr c [32; 10; 9; 13].
Fixpoint drop_blanks (s : str) : str := match s with c :: s' => if blank c then drop_blanks s' else s | [] => [] end.
Definition c_trim (s : str) : str := rev (drop_blanks (rev (drop_blanks s))).
Definition c_filter (b : bool) (name : str) (vs : list cv) : option cv :=
  match vs with
  | v :: l =>
      let? s := c_display v in
      if str_eqb name (lit "upper") || str_eqb name (lit "uppercase") then Some (CS (map up s))
      else if str_eqb name (lit "lower") || str_eqb name (lit "lowercase") then Some (CS (map down s))
      else if str_eqb name (lit "trim") then Some (CS (c_trim s))
      else if str_eqb name (lit "paren") then Some (CS (lit "(" ++ s ++ lit ")"))
      else if str_eqb name (lit "replace") then Some (CS s)
      else if str_eqb name (lit "capitalize") then Some (CS (match s with c :: s' => up c :: map down s' | [] => [] end))
      else None
  | [] => None
  end.
Definition c_bin (op : str) (a b : cv) : option cv :=
  let arith f := match a, b with CN x, CN y => Some (CN (f x y)) | _, _ => None end in
  let cmp f := match a, b with CN x, CN y => Some (CB (f x y)) | _, _ => None end in
  if str_eqb op (lit "+") then arith Z.add else if str_eqb op (lit "-") then arith Z.sub
  else if str_eqb op (lit "*") then arith Z.mul
  else if str_eqb op (lit "/") then match b with CN 0%Z => None | _ => arith Z.div end
  else if str_eqb op (lit "%") then match b with CN 0%Z => None | _ => arith Z.modulo end
  else if str_eqb op (lit "<") then cmp Z.ltb else if str_eqb op (lit ">") then cmp Z.gtb
  else if str_eqb op (lit "<=") then cmp Z.leb else if str_eqb op (lit ">=") then cmp Z.geb
  else if str_eqb op (lit "==") then Some (CB (c_eqb a b)) else if str_eqb op (lit "!=") then Some (CB (negb (c_eqb a b)))
  else None.
Definition c_field (v : cv) (x : str) : cv :=
  match v with
  | CV _ l => match get x l with Some v => v | None => CV (lit "missing") [] end
  | CT l => match c_tok x with CN z => nth (Z.to_nat z) l (CV (lit "missing") []) | _ => CV (lit "missing") [] end
  | _ => CV (lit "missing") []
  end.
Fixpoint z_range (n : nat) (z : Z) : list cv := match n with O => [] | S n' => CN z :: z_range n' (z + 1)%Z end.
Definition c_range (op : str) (a b : option cv) : option cv :=
  match a, b with
  | Some (CN x), Some (CN y) => Some (CL (z_range (Z.to_nat (y - x + if str_eqb op (lit "..=") then 1 else 0)%Z) x))
  | None, Some (CN y) => Some (CL (z_range (Z.to_nat y) 0%Z))
  | _, _ => None
  end.
Fixpoint tuple_fields (i : nat) (vs : list cv) : list (str * cv) :=
  match vs with [] => [] | v :: vs' => (nat_str i, v) :: tuple_fields (S i) vs' end.
Definition c_call (f : cv) (vs : list cv) : option cv :=
  match f with
  | CF x =>
      if str_eqb x (lit "double") then match vs with [CN z] => Some (CN (z + z)%Z) | _ => None end
      else if str_eqb x (lit "fail") then None
      else Some (CV x (tuple_fields O vs))
  | CV x [] => Some (CV x (tuple_fields O vs))         (* a constructor such as Some *)
  | _ => None
  end.
Definition c_method (v : cv) (x : str) (vs : list cv) : option cv :=
  if str_eqb x (lit "len") then match v with CL l => Some (CN (Z.of_nat (length l))) | CS s => Some (CN (Z.of_nat (length s))) | _ => None end
  else if str_eqb x (lit "iter") then Some v
  else match c_field v x with CF f => None | _ => None end.   (* a field that holds a function is not a method *)
Definition c_untuple (path : list str) (n : nat) (v : cv) : option (list cv) :=
  match path, v with
  | [], CT l => if Nat.eqb (length l) n then Some l else None
  | _ :: _, CV x l => if str_eqb x (last path []) && Nat.eqb (length l) n then Some (map snd l) else None
  | _, _ => None
  end.
Fixpoint all_some {A} (l : list (option A)) : option (list A) :=
  match l with [] => Some [] | None :: _ => None | Some a :: l' => let? r := all_some l' in Some (a :: r) end.
Definition c_unstruct (path names : list str) (v : cv) : option (list cv) :=
  match v with CV x l => if str_eqb x (last path []) then all_some (map (fun n => get n l) names) else None | _ => None end.
Definition c_is_lit (t : target) (v : cv) : bool :=
  match t with
  | TNumLit s | TBoolLit s => c_eqb (c_tok s) v
  | TStrLit s => match v with CS x => str_eqb x (c_unescape s) | _ => false end
  | TPath p => match v with CV x [] => str_eqb x (last p []) | _ => false end
  | _ => false
  end.
(** The placeholders of a format string, one per argument. *)
Fixpoint c_format (fmt : str) (vs : list cv) : option str :=
  match fmt with
  | 123 :: 125 :: s => match vs with v :: vs' => let? d := c_display v in let? r := c_format s vs' in Some (d ++ r) | [] => None end
  | 123 :: 58 :: 63 :: 125 :: s =>
      match vs with
      | v :: vs' => let? d := c_display v in let? r := c_format s vs' in Some ((match v with CS _ => 34 :: d ++ [34] | _ => d end) ++ r)
      | [] => None
      end
  | c :: s => let? r := c_format s vs in Some (c :: r)
  | [] => Some []
  end.
Definition c_join (vs : list cv) : option cv :=
  match vs with
  | [CL l; sep] => let? ss := all_some (map c_display l) in let? x := c_display sep in Some (CS (join_with x ss))
  | _ => None
  end.
Definition cworld (self : cv) : world := {|
  V := cv; w_tok := c_tok; w_str := fun s => CS (c_unescape s); w_char := fun s => CS (c_unescape s); w_text := CS;
  w_path := fun p => CV (last p []) []; w_self := self; w_field := c_field;
  w_index := fun v k => match v, k with CL l, CN z => nth_error l (Z.to_nat z) | _, _ => None end;
  w_un := fun op v => match v with CB b => if str_eqb op (lit "!") then Some (CB (negb b)) else None
                                | CN z => if str_eqb op (lit "-") then Some (CN (- z)%Z) else Some v
                                | _ => Some v end;
  w_bin := c_bin; w_bool := CB; w_truth := fun v => match v with CB b => Some b | _ => None end;
  w_range := c_range; w_arr := CL; w_tup := CT; w_call := c_call; w_method := c_method;
  w_try := fun v => match v with CV x [(_, v)] => if str_eqb x (lit "Ok") then Some v else None | _ => None end;
  w_filter := c_filter; w_format := fun f vs => option_map CS (c_format f vs); w_join := c_join;
  w_safe := CM None; w_unsafe := fun esc v => CM (Some esc) v; w_display := c_display;
  w_iter := fun v => match v with CL l => Some l | _ => None end; w_elems := fun v => match v with CL l => Some l | _ => None end;
  w_num := fun n => CN (Z.of_N n); w_to_num := fun v => match v with CN z => if (z <? 0)%Z then None else Some (Z.to_N z) | _ => None end;
  w_item := fun i f l => CV (lit "LoopItem") [(lit "index", CN (Z.of_N i)); (lit "first", CB f); (lit "last", CB l)];
  w_untuple := c_untuple; w_unstruct := c_unstruct; w_is_lit := c_is_lit; w_escape := c_escape |}.
Lemma cworld_ok : forall self, world_ok (cworld self).
Proof.
  intros. split; intros; try reflexivity; cbn.
  - unfold c_bin. cbn [str_eqb lit]. change (str_eqb (lit "+") (lit "+")) with true. cbv iota. f_equal. f_equal.
    change (fold_left _ _ _) with 1%Z. rewrite N2Z.inj_add. reflexivity.
  - destruct (Z.of_N i <? 0)%Z eqn:E; [apply Z.ltb_lt in E; pose proof (N2Z.is_nonneg i); exfalso; apply (Z.lt_irrefl 0); eapply Z.le_lt_trans; eauto|].
    now rewrite N2Z.id.
Qed.

(** ** From source text to output *)
Definition dir := list (str * str).                         (* the template files *)
Definition t_inp (block : option str) (path : str) : ginput :=
  {| f_escaper := lit "::askama::Html";
     f_escapers := [([lit "html"; lit "htm"; lit "xml"], lit "::askama::Html"); ([lit "none"; lit "txt"], lit "::askama::Text")];
     f_json := false; f_ws := Preserve; f_block := block; f_path := path |}.
(** Names are looked up as they are: no directories. *)
Definition t_find (d : dir) (p from : str) : res str := match get p d with Some _ => Ok p | None => Err (lit "not found") end.
Definition t_load (d : dir) (p : str) : res str := match get p d with Some s => Ok s | None => Err (lit "not found") end.
Definition t_parse (s : str) : res (list node) :=
  match test s with Some (inl ns) => Ok ns | Some (inr _) => Err (lit "syntax error") | None => Panic end.
Definition FUEL : nat := 40.
Definition t_templates (d : dir) (path : str) : gres (list (str * list node)) :=
  let* src := of_res (t_load d path) in find_used_templates (t_find d) (t_load d) t_parse FUEL path src.
(** The generated code and size hint *)
Definition t_code (d : dir) (block : option str) (path : str) : gres (list stmt * N) :=
  let* ts := t_templates d path in build_template (t_inp block path) (t_find d) FUEL ts.
Definition t_mean (d : dir) (path : str) : gres (list tnode) :=
  let* ts := t_templates d path in assemble (t_inp None path) (t_find d) FUEL ts.
(** What the generated code writes, and what the template means *)
Definition t_run (d : dir) (block : option str) (path : str) (self : cv) : gres (out str) :=
  let* (code, _) := t_code d block path in GOk (run (cworld self) code).
Definition t_ref (d : dir) (path : str) (self : cv) : gres (out str) :=
  let* ts := t_mean d path in GOk (render (cworld self) (t_inp None path) ts).
(** A single template *)
Definition main : str := lit "main.html".
Definition one (src : str) : dir := [(main, src)].
Definition struct (l : list (str * cv)) : cv := CV (lit "Template") l.
