(** Vocabulary of C107: expressions made of tables with [+] and [-], and when two of them are the same
    table whatever tables they are made of. *)
From Verif Require Import Base Corr.

(** What a caller writes: tables named by numbers, joined by [+] and [-]. *)
Inductive expr := Tab (v : nat) | Plus (a b : expr) | Minus (a b : expr).

(** The value of the expression: the operators of /repo/src/corr.rs:145-164 and 184-202. *)
Fixpoint value (env : nat -> list item) (e : expr) : corr :=
  match e with
  | Tab v => synth (env v)
  | Plus a b => fun o => corr_add o (value env a) (value env b)
  | Minus a b => fun o => corr_sub o (value env a) (value env b)
  end.

(** Whether an item is in the result, from whether it is in each of the tables. *)
Fixpoint holds (b : nat -> bool) (e : expr) : bool :=
  match e with
  | Tab v => b v
  | Plus x y => orb (holds b x) (holds b y)
  | Minus x y => andb (holds b x) (negb (holds b y))
  end.

(** The table whose repeated items the result still repeats: the leftmost one, unless a [+] lies above it. *)
Fixpoint repeats (e : expr) : option nat :=
  match e with Tab v => Some v | Plus _ _ => None | Minus x _ => repeats x end.

(** Two expressions that are the same table: both are the same bare table; or both apply an operator, an
    item is in the one exactly if it is in the other, and if any item can be in them, they repeat the items
    of the same table or both repeat none. *)
Definition same_law (e f : expr) : Prop :=
  match e, f with
  | Tab v, Tab w => v = w
  | Tab _, _ => False
  | _, Tab _ => False
  | _, _ => (forall b, holds b e = holds b f) /\ (repeats e = repeats f \/ forall b, holds b e = false)
  end.

(** The tables an expression names. *)
Fixpoint names (e : expr) : list nat :=
  match e with Tab v => [v] | Plus x y => names x ++ names y | Minus x y => names x ++ names y end.
(** Every way of choosing, from the given tables, those an item is in. *)
Fixpoint choices (l : list nat) : list (nat -> bool) :=
  match l with
  | [] => [fun _ => false]
  | v :: r => flat_map (fun b => map (fun x w => if Nat.eqb w v then x else b w) [true; false]) (choices r)
  end.
Definition opt_eqb (a b : option nat) : bool :=
  match a, b with Some x, Some y => Nat.eqb x y | None, None => true | _, _ => false end.
(** A test that decides [same_law]. *)
Definition same_law_b (e f : expr) : bool :=
  match e, f with
  | Tab v, Tab w => Nat.eqb v w
  | Tab _, _ => false
  | _, Tab _ => false
  | _, _ => let l := choices (names e ++ names f) in
      forallb (fun b => Bool.eqb (holds b e) (holds b f)) l &&
      (opt_eqb (repeats e) (repeats f) || forallb (fun b => negb (holds b e)) l)
  end.
