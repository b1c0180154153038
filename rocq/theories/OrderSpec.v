(** Vocabulary of C110: how much a modifier remembers while reading when the order of its hash map is fixed, and how many orders there are. *)
From Coq Require Import Factorial.
From Verif Require Import Base Converter Eliminator Ligature Neologdn ModifierKind ChanomaModel Spec ShortSpec.

Definition order_memory (m : modifier) : nat :=
  match m with
  | MLig l => fold_right (fun e n => S (length (fst e)) * 2 ^ length (fst e) * n) 1 l
  | _ => memory m
  end.
Definition order_memory_of (c : chanoma) : nat := fold_right (fun m n => order_memory m * n) 1 c.
(** Only ligature maps are read in an order that can show. *)
Definition orders (m : modifier) : nat := match m with MLig l => fact (length l) | _ => 1 end.
Definition orders_of (c : chanoma) : nat := fold_right (fun m n => orders m * n) 1 c.
