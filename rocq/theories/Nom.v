(** * The nom 7.1 combinators used by askama_parser (an external crate; modelled from its documentation and semantics).
    Input is a list of characters; a position is the rest of the input. *)
From Verif Require Import Base.
Local Open Scope N_scope.

(** nom's [IResult] with askama_parser's [ErrorContext] (askama_parser/src/lib.rs:174-188): [PErr] is [Err::Error]
    (recoverable), [PFail] is [Err::Failure].  [PStuck] stands for a panic or an exhausted bound of the model. *)
Inductive pres (A : Type) :=
| POk (rest : str) (a : A) | PErr (at_ : str) (msg : option str) | PFail (at_ : str) (msg : option str) | PStuck.
Arguments POk {A} rest a.
Arguments PErr {A} at_ msg.
Arguments PFail {A} at_ msg.
Arguments PStuck {A}.

(** A parser without access to the parser state. *)
Definition P (A : Type) := str -> pres A.
Definition pret {A} (a : A) : P A := fun i => POk i a.
Definition pbind {A B} (p : P A) (k : A -> P B) : P B := fun i =>
  match p i with POk r a => k a r | PErr e m => PErr e m | PFail e m => PFail e m | PStuck => PStuck end.
Notation "x <- p ;; k" := (pbind p (fun x => k)) (at level 61, p at next level, right associativity).
Notation "' x <- p ;; k" := (pbind p (fun x => k)) (at level 61, x pattern, p at next level, right associativity).
Notation "p ;;; k" := (pbind p (fun _ => k)) (at level 61, right associativity).
Definition pmap {A B} (f : A -> B) (p : P A) : P B := fun i =>
  match p i with POk r a => POk r (f a) | PErr e m => PErr e m | PFail e m => PFail e m | PStuck => PStuck end.
Definition value {A B} (b : B) (p : P A) : P B := pmap (fun _ => b) p.
(** [Err(nom::Err::Error(error_position!(i, ..)))] *)
Definition perr {A} : P A := fun i => PErr i None.
(** [cut]: an Error becomes a Failure. *)
Definition cut {A} (p : P A) : P A := fun i => match p i with PErr e m => PFail e m | r => r end.
(** [opt] *)
Definition opt {A} (p : P A) : P (option A) := fun i =>
  match p i with POk r a => POk r (Some a) | PErr _ _ => POk i None | PFail e m => PFail e m | PStuck => PStuck end.
(** [alt]: the next parser runs only if the one before returned an Error; the last error is reported. *)
Definition por {A} (p q : P A) : P A := fun i => match p i with PErr _ _ => q i | r => r end.
Notation "p <|> q" := (por p q) (at level 60, right associativity).
(** [not], [peek], [recognize] *)
Definition pnot {A} (p : P A) : P unit := fun i =>
  match p i with POk _ _ => PErr i None | PErr _ _ => POk i tt | PFail e m => PFail e m | PStuck => PStuck end.
Definition peek {A} (p : P A) : P A := fun i =>
  match p i with POk _ a => POk i a | PErr e m => PErr e m | PFail e m => PFail e m | PStuck => PStuck end.
(** The part of [i] before its suffix [r] (nom's [offset] and [slice]). *)
Definition before (i r : str) : str := firstn (length i - length r) i.
Definition recognize {A} (p : P A) : P str := fun i =>
  match p i with POk r _ => POk r (before i r) | PErr e m => PErr e m | PFail e m => PFail e m | PStuck => PStuck end.
(** [consumed] *)
Definition consumed {A} (p : P A) : P (str * A) := fun i =>
  match p i with POk r a => POk r (before i r, a) | PErr e m => PErr e m | PFail e m => PFail e m | PStuck => PStuck end.
(** [eof], [char], [satisfy], [anychar], [one_of], [tag] *)
Definition eof : P unit := fun i => match i with [] => POk [] tt | _ => PErr i None end.
Definition satisfy (f : N -> bool) : P N := fun i => match i with c :: r => if f c then POk r c else PErr i None | [] => PErr i None end.
Definition pchar (c : N) : P N := satisfy (N.eqb c).
Definition anychar : P N := satisfy (fun _ => true).
Definition one_of (s : str) : P N := satisfy (fun c => mem_chr c s).
Definition tag (t : str) : P str := fun i => match strip_prefix t i with Some r => POk r t | None => PErr i None end.
(** [take_till] (complete): never fails. *)
Fixpoint span (f : N -> bool) (i : str) : str * str :=
  match i with [] => ([], []) | c :: i' => if f c then let (a, b) := span f i' in (c :: a, b) else ([], i) end.
Definition take_till (f : N -> bool) : P str := fun i => let (a, r) := span (fun c => negb (f c)) i in POk r a.
(** [split_at_position1_complete]: up to the first character with [f]; an Error if that is empty. *)
Definition split_at_position1 (f : N -> bool) : P str := fun i =>
  match span (fun c => negb (f c)) i with ([], _) => PErr i None | (a, r) => POk r a end.
(** [take_while_m_n] on characters *)
Fixpoint span_max (n : nat) (f : N -> bool) (i : str) : str * str :=
  match n, i with
  | S n', c :: i' => if f c then let (a, b) := span_max n' f i' in (c :: a, b) else ([], i)
  | _, _ => ([], i)
  end.
Definition take_while_m_n (m n : nat) (f : N -> bool) : P str := fun i =>
  let (a, r) := span_max n f i in if Nat.ltb (length a) m then PErr i None else POk r a.

(** [many0] (and [fold_many0], [many0_count], which collect differently): repeat until an Error; an iteration that
    succeeds without consuming is an Error.  The fuel is the length of the input plus one; [PStuck] when exhausted. *)
Fixpoint many0_fuel {A} (n : nat) (p : P A) (i : str) : pres (list A) :=
  match n with
  | O => PStuck
  | S n' => match p i with
            | PErr _ _ => POk i []
            | PFail e m => PFail e m
            | PStuck => PStuck
            | POk r a => if Nat.eqb (length r) (length i) then PErr i None
                         else match many0_fuel n' p r with
                              | POk r' l => POk r' (a :: l)
                              | x => x
                              end
            end
  end.
Definition many0 {A} (p : P A) : P (list A) := fun i => many0_fuel (S (length i)) p i.
(** [many1] *)
Definition many1 {A} (p : P A) : P (list A) := fun i =>
  match p i with
  | POk r a => match many0_fuel (S (length r)) p r with POk r' l => POk r' (a :: l) | x => x end
  | PErr e m => PErr e m | PFail e m => PFail e m | PStuck => PStuck
  end.
(** The loop of [separated_list0] and [separated_list1]: an element that fails after a separator ends the list before the
    separator; a separator that consumes nothing is an Error.  [S] is state that the element parser carries along. *)
Fixpoint sep_loop {S A B} (n : nat) (sep : P B) (p : S -> P (S * A)) (st : S) (i : str) : pres (list A) :=
  match n with
  | O => PStuck
  | Datatypes.S n' =>
      match sep i with
      | PErr _ _ => POk i []
      | PFail e m => PFail e m
      | PStuck => PStuck
      | POk r _ =>
          if Nat.eqb (length r) (length i) then PErr r None
          else match p st r with
               | PErr _ _ => POk i []
               | PFail e m => PFail e m
               | PStuck => PStuck
               | POk r2 (st2, a) => match sep_loop n' sep p st2 r2 with POk r' l => POk r' (a :: l) | x => x end
               end
      end
  end.
Definition separated_list0_st {S A B} (sep : P B) (p : S -> P (S * A)) (st : S) : P (list A) := fun i =>
  match p st i with
  | PErr _ _ => POk i []
  | PFail e m => PFail e m
  | PStuck => PStuck
  | POk r (st2, a) => match sep_loop (Datatypes.S (length r)) sep p st2 r with POk r' l => POk r' (a :: l) | x => x end
  end.
Definition separated_list0 {A B} (sep : P B) (p : P A) : P (list A) :=
  separated_list0_st sep (fun (_ : unit) => pmap (fun a => (tt, a)) p) tt.

(** ** Parsers with access to the parser state *)
(** The mutable part of askama_parser/src/lib.rs:531-535 ([State]): [level] and [loop_depth].  Mutations survive
    backtracking, so failures carry the state as well. *)
Record pstate := { level : nat; loop_depth : nat }.
Definition M (A : Type) := pstate -> str -> pres A * pstate.
Definition lift {A} (p : P A) : M A := fun s i => (p i, s).
Definition mret {A} (a : A) : M A := fun s i => (POk i a, s).
Definition mbind {A B} (p : M A) (k : A -> M B) : M B := fun s i =>
  match p s i with
  | (POk r a, s') => k a s' r
  | (PErr e m, s') => (PErr e m, s') | (PFail e m, s') => (PFail e m, s') | (PStuck, s') => (PStuck, s')
  end.
Notation "x <-- p ;; k" := (mbind p (fun x => k)) (at level 61, p at next level, right associativity).
Notation "' x <-- p ;; k" := (mbind p (fun x => k)) (at level 61, x pattern, p at next level, right associativity).
Notation "p ;;-- k" := (mbind p (fun _ => k)) (at level 61, right associativity).
(** [s.level.get()] at the time the parser runs. *)
Definition with_level {A} (p : nat -> P A) : M A := fun s i => (p (level s) i, s).
Definition mmap {A B} (f : A -> B) (p : M A) : M B := fun s i =>
  match p s i with
  | (POk r a, s') => (POk r (f a), s')
  | (PErr e m, s') => (PErr e m, s') | (PFail e m, s') => (PFail e m, s') | (PStuck, s') => (PStuck, s')
  end.
Definition mcut {A} (p : M A) : M A := fun s i => match p s i with (PErr e m, s') => (PFail e m, s') | r => r end.
Definition mopt {A} (p : M A) : M (option A) := fun s i =>
  match p s i with
  | (POk r a, s') => (POk r (Some a), s') | (PErr _ _, s') => (POk i None, s')
  | (PFail e m, s') => (PFail e m, s') | (PStuck, s') => (PStuck, s')
  end.
Definition mor {A} (p q : M A) : M A := fun s i => match p s i with (PErr _ _, s') => q s' i | r => r end.
Notation "p <||> q" := (mor p q) (at level 60, right associativity).
Fixpoint mmany0_fuel {A} (n : nat) (p : M A) (s : pstate) (i : str) : pres (list A) * pstate :=
  match n with
  | O => (PStuck, s)
  | S n' => match p s i with
            | (PErr _ _, s') => (POk i [], s')
            | (PFail e m, s') => (PFail e m, s')
            | (PStuck, s') => (PStuck, s')
            | (POk r a, s') => if Nat.eqb (length r) (length i) then (PErr i None, s')
                               else match mmany0_fuel n' p s' r with
                                    | (POk r' l, s'') => (POk r' (a :: l), s'')
                                    | x => x
                                    end
            end
  end.
Definition mmany0 {A} (p : M A) : M (list A) := fun s i => mmany0_fuel (S (length i)) p s i.
Definition mmany1 {A} (p : M A) : M (list A) :=
  a <-- p ;; l <-- mmany0 p ;; mret (a :: l).
Fixpoint msep_loop {A B} (n : nat) (sep : P B) (p : M A) (s : pstate) (i : str) : pres (list A) * pstate :=
  match n with
  | O => (PStuck, s)
  | S n' =>
      match sep i with
      | PErr _ _ => (POk i [], s)
      | PFail e m => (PFail e m, s)
      | PStuck => (PStuck, s)
      | POk r _ =>
          if Nat.eqb (length r) (length i) then (PErr r None, s)
          else match p s r with
               | (PErr _ _, s') => (POk i [], s')
               | (PFail e m, s') => (PFail e m, s')
               | (PStuck, s') => (PStuck, s')
               | (POk r2 a, s') => match msep_loop n' sep p s' r2 with (POk r' l, s'') => (POk r' (a :: l), s'') | x => x end
               end
      end
  end.
(** [separated_list1] *)
Definition mseparated_list1 {A B} (sep : P B) (p : M A) : M (list A) :=
  a <-- p ;; l <-- (fun s i => msep_loop (S (length i)) sep p s i) ;; mret (a :: l).
