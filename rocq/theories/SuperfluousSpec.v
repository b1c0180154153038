(** Specification vocabulary for C103: when a modifier next to another can be left out. *)
From Verif Require Import Base Utf8 ModifierKind Spec.

(** Modifiers without ligatures and neologdn, for characters there are. *)
Definition plain (m : modifier) : Prop :=
  match m with
  | MConv _ | MDot | MTrim => True
  | MElim el => valid_str el
  | MRed k => is_scalar k = true
  | MLig _ | MNeo _ => False
  end.
Section Conditions.
  (** [makes a c d]: the conversion [a] makes the character [c] the character [d]. *)
  Context (makes : modifier -> char -> char -> Prop).
  Definition keeps_all (b : modifier) : Prop := forall c, is_scalar c = true -> makes b c c.
  (** The condition for leaving out [b] directly behind [a]. *)
  Definition behind (a b : modifier) : Prop :=
    match a, b with
    | MConv _, MConv _ => forall c d, is_scalar c = true -> makes a c d -> makes b d d
    | MConv _, MElim el => forall c d, is_scalar c = true -> makes a c d -> ~ In d el
    | MConv _, MRed k => forall c d, is_scalar c = true -> makes a c d -> d <> k
    | MConv _, _ => forall c d, is_scalar c = true -> makes a c d -> d <> space
    | MElim el, MConv _ => forall c, is_scalar c = true -> ~ In c el -> makes b c c
    | MElim el, MElim el' => incl el' el
    | MElim el, MRed k => In k el
    | MElim el, _ => In space el
    | _, MConv _ => keeps_all b
    | _, MElim el => el = []
    | MRed k, MRed j => j = k
    | MRed _, _ => False
    | MDot, MRed k => k = space
    | MDot, _ => True
    | MTrim, MTrim => True
    | _, _ => False
    end.
  (** The condition for leaving out [a] directly before [b]. *)
  Definition before (a b : modifier) : Prop :=
    match b, a with
    | MConv _, MConv _ => forall c d e, is_scalar c = true -> makes a c d -> makes b c e -> makes b d e
    | MElim el, MConv _ => forall c d, is_scalar c = true -> makes a c d -> c = d \/ (In c el /\ In d el)
    | _, MConv _ => keeps_all a
    | MElim el', MElim el => incl el el'
    | MElim el, MRed k => In k el
    | MElim el, _ => In space el
    | _, MElim el => el = []
    | MRed k, MRed j => j = k
    | MDot, MRed k => k = space
    | MDot, _ => True
    | MTrim, MTrim => True
    | _, _ => False
    end.
End Conditions.
