(** Vocabulary of C108: how much a modifier remembers while reading, and which characters it tells apart. *)
From Verif Require Import Base Converter Eliminator Ligature Neologdn ModifierKind ChanomaModel Spec.

(** The number of things a reader of the text has to tell apart to know the rest of the result. *)
Definition key_total (l : list (str * str)) : nat := list_sum (map (fun e => length (fst e)) l).
Definition memory (m : modifier) : nat :=
  match m with
  | MConv _ => 1
  | MElim _ => 1
  | MRed _ => 2
  | MDot => 3
  | MTrim => 3
  | MLig l => S (key_total l) * 2 ^ key_total l
  | MNeo _ => 36
  end.
Definition memory_of (c : chanoma) : nat := fold_right (fun m n => memory m * n) 1 c.

(** [A] has the characters the modifier tells apart. *)
Inductive covers (A : list char) : modifier -> Prop :=
| cov_conv cc : (forall c d, In (c, d) cc -> In c A /\ In d A) -> covers A (MConv cc)
| cov_elim l : incl l A -> covers A (MElim l)
| cov_red k : In k A -> covers A (MRed k)
| cov_dot : In space A -> (forall c, alnum c -> In c A) -> covers A MDot
| cov_trim : In space A -> covers A MTrim
| cov_lig l : (forall k v, In (k, v) l -> incl k A /\ incl v A) -> covers A (MLig l)
| cov_neo n : In space A -> In prolonged_mark A -> (forall c, alnum c -> In c A) -> incl tilde_variants A ->
    (forall c t, neologdn_rel c t -> In c A /\ In t A) -> (forall a m t, composes a m t -> In a A /\ In m A /\ In t A) -> covers A (MNeo n).

(** Texts of fewer than [n] characters of [A]. *)
Fixpoint texts (A : list char) (n : nat) : list str :=
  match n with 0 => [] | S n' => [] :: flat_map (fun t => map (fun c => c :: t) A) (texts A n') end.
