(** What a renaming of characters has to respect so that a modifier does not notice it (C99). *)
From Verif Require Import Base Converter Eliminator Ligature Neologdn ModifierKind Spec.

(** Of the characters satisfying [Q], exactly the character [x] is renamed to [x]. *)
Definition only (Q : char -> Prop) (g : char -> char) (x : char) : Prop := g x = x /\ forall y, Q y -> g y = x -> y = x.
Definition any (c : char) : Prop := True.
(** Characters neologdn does not convert. *)
Definition settled (c : char) : Prop := forall t, ~ neologdn_rel c t.

(** [unnoticed g m]: renaming every character by [g] leaves the roles that characters play in [m]. *)
Inductive unnoticed (g : char -> char) : modifier -> Prop :=
(** a conversion: what becomes of a renamed character is the renamed character it becomes; *)
| un_conv cc : (forall c d, conv_modify (fun l => l) cc [c] = Ok [d] -> conv_modify (fun l => l) cc [g c] = Ok [g d]) -> unnoticed g (MConv cc)
(** an elimination: the same characters are eliminated; *)
| un_elim l : (forall c, In (g c) l <-> In c l) -> unnoticed g (MElim l)
(** a reduction: the reduced character is kept, and no other becomes it; *)
| un_red c : only any g c -> unnoticed g (MRed c)
(** removal of spaces: the same for the space, and letters/digits remain what they are; *)
| un_dot : only any g space -> (forall c, alnum (g c) <-> alnum c) -> unnoticed g MDot
| un_trim : only any g space -> unnoticed g MTrim
(** ligatures: the characters of the searched texts and of the replacements; *)
| un_lig l : (forall k v, In (k, v) l -> (forall x, In x k -> only any g x) /\ forall x, In x v -> g x = x) -> unnoticed g (MLig l)
(** neologdn: characters that are converted; the prolonged sound mark, the space, letters and digits, the
    tildes, the kana and marks that are composed, and what they are composed to. *)
| un_neo n : (forall c t, neologdn_rel c t -> neologdn_rel (g c) (g t) \/ (g c = g t /\ settled (g c))) ->
    (forall c, settled c -> settled (g c)) ->
    only settled g prolonged_mark -> only settled g space -> (forall c, settled c -> alnum (g c) <-> alnum c) ->
    (forall c, settled c -> In (g c) tilde_variants <-> In c tilde_variants) ->
    (forall a m t, composes a m t -> only settled g a /\ only settled g m /\ g t = t) -> unnoticed g (MNeo n).

(** Lower case of the Latin letters of ASCII, and of their full-width forms. *)
Definition lower_ascii (c : char) : char := if (N.leb 0x41 c && N.leb c 0x5A)%bool then (c + 0x20)%N else c.
Definition lower (c : char) : char :=
  if (N.leb 0xFF21 c && N.leb c 0xFF3A)%bool then (c + 0x20)%N else lower_ascii c.
