(** Model of /repo/src/position.rs. *)
From Verif Require Import Base.

(** /repo/src/position.rs:7-14 *)
Record position := Pos {
  p_from : str; p_to : str; p_index : nat; p_length : nat; p_utf8_index : nat; p_utf8_length : nat }.

(** /repo/src/position.rs:17-33: argument order of [Position::new]. *)
Definition position_new (f t : str) (index utf8_index length utf8_length : nat) : position :=
  {| p_from := f; p_to := t; p_index := index; p_utf8_index := utf8_index;
     p_length := length; p_utf8_length := utf8_length |}.

(** /repo/src/position.rs:36-40 *)
Definition position_eqb (a b : position) : bool := Nat.eqb (p_index a) (p_index b).
(** /repo/src/position.rs:42-46 *)
Definition position_cmp (a b : position) : comparison := Nat.compare (p_index a) (p_index b).

(** [positions.sort()] by a user: stable insertion sort on [position_cmp]. *)
Fixpoint pos_insert (x : position) (l : list position) : list position :=
  match l with
  | [] => [x]
  | y :: r => match position_cmp x y with Gt => y :: pos_insert x r | _ => x :: l end
  end.
Definition sort_positions (l : list position) : list position := fold_right pos_insert [] l.
