(** Specification vocabulary for C97: how far a change of a text reaches. *)
From Verif Require Import Base Spec.

(** [x] and [y] agree outside one stretch, of at most [m] characters in [x] and at most [n] characters in [y]. *)
Definition differ_in (m n : nat) (x y : str) : Prop :=
  exists p u v s, x = p ++ u ++ s /\ y = p ++ v ++ s /\ length u <= m /\ length v <= n.
(** A text is made from another by [n] changes of at most one character: exchanging, inserting or removing one. *)
Inductive edits : nat -> str -> str -> Prop :=
| ed_none x : edits 0 x x
| ed_more n x y z : edits n x y -> differ_in 1 1 y z -> edits (S n) x z.
(** Occurrences of the keys of a map in a text, two occurrences of one key too, never share a character. *)
Definition separate (l : list (str * str)) : Prop := forall s k v k' v' i j, In (k, v) l -> In (k', v') l ->
  occurs_at k s i -> occurs_at k' s j -> (k = k' /\ i = j) \/ i + length k <= j \/ j + length k' <= i.
